(** C116: a request is answered, and a reply received, without reading on. *)
From Coq Require Import String.
From Coq Require Import ZArith List Bool Lia.
From Coq Require Import ZifyBool ZifyNat.
From Verif Require Import Base Errors Transport Proto Skip Arith Values Access SkipProofs BinaryProofs BinarySpec Binary BinaryMsg
  TransportProofs Compact CompactSpec CompactProofs CompactRead CompactStruct CompactExact OverInst OverRpc.
From Verif Require Import TField GoVal Compare TMap Gen GenSpec GenProofs GenInst GenRound PropGen.
From Verif Require Import AppExc AppExcProofs PropRpc Rpc RpcProofs PropService Serve ServeProofs PropServe Ahead.
From Verif Require Import WfDec Strconv BufIO BufRead JsonText Json JsonSpec PropJson PropJsonRpc Names Tutorial.
Import ListNotations.
Open Scope Z_scope.
Local Notation length := List.length.

(** ** A transport with data and something behind it *)

(** The input brings the bytes [b], in any pieces, and then whatever [t] is: more bytes, an error, nothing
    (then a Read would wait). *)
Definition brings (t : rt) (b : bytes) (r : rt) : Prop := exists q, benign q /\ content q = b /\ r = q ++ t.
Lemma brings_nil : forall t r, brings t [] r <-> r = t.
Proof.
  intros t r. split.
  - intros (q & B & C & ->). apply empty_input in C; [|exact B]. subst q. reflexivity.
  - intros ->. exists []. repeat split. constructor.
Qed.

Section Behind.
Variable t : rt.
Definition bnext (s : rt) (b : bytes) : Prop := brings t b s.
Definition cnext (s : cr) (b : bytes) : Prop := brings t b (fst s) /\ boolValueIsNotNull (snd s) = false.

Lemma marked : forall r b, brings t b r -> exists r0, benign r0 /\ content r0 = b ++ [0] /\ tails t r0 r.
Proof.
  intros r b (q & B & C & ->). exists (q ++ mark). split; [|split].
  - apply Forall_app. split; [exact B|]. constructor; [split; [discriminate|reflexivity]|constructor].
  - unfold content in *. rewrite map_app, concat_app. apply (f_equal (fun k => k ++ [0])), C.
  - exists q. auto.
Qed.
Lemma unmarked : forall r0 r b, benign r0 -> content r0 = b ++ [0] -> tails t r0 r -> brings t b r.
Proof.
  intros r0 r b _ C (q & B & -> & ->). exists q. split; [exact B|]. split; [|reflexivity].
  unfold content in *. rewrite map_app, concat_app in C. apply app_inj_tail in C. exact (proj1 C).
Qed.
Lemma undone : forall r0 b, content r0 = b ++ [0] -> ~ done r0.
Proof. intros r0 b C D. unfold done in D. rewrite C in D. destruct b; discriminate. Qed.

Lemma bnext_msg : forall strict strictW name ty seq s rest, strictW = true \/ strict = false ->
  ty = CALL \/ ty = REPLY \/ ty = EXCEPTION -> cokm name seq ->
  bnext s (bmsg strictW name ty seq ++ rest) ->
  exists s', rMessageBegin (binaryR strict) s = Ok ((name, ty, seq), None, s') /\ bnext s' rest.
Proof.
  intros strict strictW name ty seq s rest Hst Ht Km N. destruct (marked _ _ N) as (r0 & B & C & T).
  rewrite <- app_assoc in C.
  destruct (bir_msg strict strictW name ty seq r0 (rest ++ [0]) Hst Ht Km (conj B C)) as (r1 & E & B1 & C1).
  destruct (step _ _ _ _ _ _ _ _ (jMessageBegin _ _ _ (binary_near t strict)) T E (undone _ _ C1)) as (s' & E' & T').
  exists s'. split; [exact E'|]. eapply unmarked; eassumption.
Qed.
Lemma bnext_val : forall strict v s rest, wf v -> True -> bnext s (sb_val v ++ rest) ->
  exists s', rd true (binaryR strict) (ue false v) s s' /\ bnext s' rest.
Proof.
  intros strict v s rest Hw _ N. destruct (marked _ _ N) as (r0 & B & C & T). rewrite <- app_assoc in C.
  destruct (bir_val strict v r0 (rest ++ [0]) Hw I (conj B C)) as (r1 & E & B1 & C1).
  destruct (proj1 (rd_near _ _ true _ (binary_near t strict) (tails_fun t)) _ _ _ E (undone _ _ C1) _ T) as (s' & E' & T').
  exists s'. split; [exact E'|]. eapply unmarked; eassumption.
Qed.
Lemma bnext_end : forall strict s b, True -> bnext s b -> exists s', rMessageEnd (binaryR strict) s = Ok (None, s') /\ bnext s' b.
Proof. intros strict s b _ Hb. exists s. split; [reflexivity|exact Hb]. Qed.

Lemma cnext_msg : forall name ty seq s rest, ty = CALL \/ ty = REPLY \/ ty = EXCEPTION -> cokm name seq ->
  cnext s (sc_message name ty seq ++ rest) ->
  exists s', rMessageBegin compactR s = Ok ((name, ty, seq), None, s') /\ cnext s' rest.
Proof.
  intros name ty seq [s c] rest Ht Km [N Nb]. cbn [fst snd] in *. destruct (marked _ _ N) as (r0 & B & C & T).
  rewrite <- app_assoc in C. assert (Tc : ctails t (r0, c) (s, c)) by (split; [exact T|reflexivity]).
  destruct (cir_msg name ty seq (r0, c) (rest ++ [0]) Ht Km) as (r1 & E & B1 & C1 & N1); [split; [exact B|split; assumption]|].
  destruct (step _ _ _ _ _ _ _ (s, c) (jMessageBegin _ _ _ (compact_near t)) Tc E (undone _ _ C1)) as (s' & E' & T' & Ec).
  exists s'. split; [exact E'|]. split; [eapply unmarked; eassumption|congruence].
Qed.
Lemma cnext_val : forall v s rest, wf v -> cokv v -> cnext s (sc_val v ++ rest) ->
  exists s', rd true compactR (ue true v) s s' /\ cnext s' rest.
Proof.
  intros v [s c] rest Hw Kv [N Nb]. cbn [fst snd] in *. destruct (marked _ _ N) as (r0 & B & C & T). rewrite <- app_assoc in C.
  assert (Tc : ctails t (r0, c) (s, c)) by (split; [exact T|reflexivity]).
  destruct (cir_val v (r0, c) (rest ++ [0]) Hw Kv) as (r1 & E & B1 & C1 & N1); [split; [exact B|split; assumption]|].
  destruct (proj1 (rd_near _ _ true _ (compact_near t) (ctails_fun t)) _ _ _ E (undone _ _ C1) (s, c) Tc) as (s' & E' & T' & Ec).
  exists s'. split; [exact E'|]. split; [eapply unmarked; eassumption|congruence].
Qed.
Lemma cnext_end : forall s b, True -> cnext s b -> exists s', rMessageEnd compactR s = Ok (None, s') /\ cnext s' b.
Proof. intros s b _ Hb. exists s. split; [reflexivity|exact Hb]. Qed.
End Behind.

(** ** A server *)

(** What the input has yet to bring. *)
Definition yet (intw : Z) (pf : pfactory) : rd_st (GetReader intw TFPlain pf) -> rt :=
  match pf with PFBinary _ _ => fun r => r | PFCompact => fst end.
(** Between two calls of Process: nothing is kept of a field. *)
Definition between (intw : Z) (pf : pfactory) : rd_st (GetReader intw TFPlain pf) -> Prop :=
  match pf with PFBinary _ _ => fun _ => True | PFCompact => fun s => boolValueIsNotNull (snd s) = false end.

(** The input holds these requests, in any pieces; then comes [t]. *)
Definition holds_then (intw : Z) (x : ext) (ip : pfactory) (strict : bool) (t : rt)
    (si : rd_st (GetReader intw TFPlain ip)) (rs : list request) : Prop :=
  exists bs, Forall2 (sent x ip strict) rs bs /\ brings t (concat bs) (yet intw ip si) /\ between intw ip si.
Lemma holds_last : forall intw x ip strict t si, holds_then intw x ip strict t si [] -> yet intw ip si = t.
Proof. intros intw x ip strict t si (bs & F & B & _). inversion F; subst. apply brings_nil in B. exact B. Qed.

Lemma server_step : forall H intw x M cf fuel errtext
    (handle : H -> bytes -> list any -> (list (Z * any) * option bytes) * H) fs ip op strict t,
  header_ok ip strict -> service_ok x fuel handle fs op ->
  step_ok (rd_proto (GetReader intw TFPlain ip)) (wr_proto (GetWriter TFPlain op)) (wr_flush (GetWriter TFPlain op))
    x M cf fuel errtext handle fs (request_ok x fuel fs ip op) (holds_then intw x ip strict t) (plain_out op) (told op).
Proof.
  intros H intw x M cf fuel errtext handle fs ip op strict t Hd Sv.
  assert (G : forall ins ins', (forall s rs, ins s rs <-> ins' s rs) ->
    step_ok (rd_proto (GetReader intw TFPlain ip)) (wr_proto (GetWriter TFPlain op)) (wr_flush (GetWriter TFPlain op))
      x M cf fuel errtext handle fs (request_ok x fuel fs ip op) ins (plain_out op) (told op) ->
    step_ok (rd_proto (GetReader intw TFPlain ip)) (wr_proto (GetWriter TFPlain op)) (wr_flush (GetWriter TFPlain op))
      x M cf fuel errtext handle fs (request_ok x fuel fs ip op) ins' (plain_out op) (told op)).
  { intros ins ins' E K r rs h si so o Kr Hi Ho. destruct (K r rs h si so o Kr (proj2 (E _ _) Hi) Ho) as (p & a & P & A & Hi' & Ho').
    exists p, a. split; [exact P|]. split; [exact A|]. split; [apply E, Hi'|exact Ho']. }
  destruct ip as [sr sw|].
  - apply (G (holds_requests x (PFBinary sr sw) strict (bnext t))).
    { intros s rs. unfold holds_requests, holds_then. cbn [yet between]. split.
      - intros (bs & F & B). exists bs. split; [exact F|split; [exact B|exact I]].
      - intros (bs & F & B & _). exists bs. split; [exact F|exact B]. }
    destruct op as [sr' sw'|].
    + apply (plain_step (binaryR sr) (binaryW sw') x M cf fuel errtext handle fs (PFBinary sr sw) (PFBinary sr' sw')
        strict bow (bnext t) true false (fun _ => True) (fun _ => True) (bow_val sw') (bow_exc sw')
        (fun name ty seq s o Ht _ => bow_msg sw' name ty seq s o Ht I) bow_end bow_nop
        (fun name ty seq s rest => bnext_msg t sr strict name ty seq s rest Hd) (bnext_val t sr) (bnext_end t sr)); auto; discriminate.
    + apply (plain_step (binaryR sr) compactW x M cf fuel errtext handle fs (PFBinary sr sw) PFCompact
        strict cow (bnext t) false false exc_ok (fun _ => True) cow_val cow_exc cow_msg cow_end cow_nop
        (fun name ty seq s rest => bnext_msg t sr strict name ty seq s rest Hd) (bnext_val t sr) (bnext_end t sr)); auto.
  - apply (G (holds_requests x PFCompact strict (cnext t))).
    { intros s rs. unfold holds_requests, holds_then, cnext. cbn [yet between]. split.
      - intros (bs & F & B & N). exists bs. auto.
      - intros (bs & F & B & N). exists bs. auto. }
    destruct op as [sr' sw'|].
    + apply (plain_step compactR (binaryW sw') x M cf fuel errtext handle fs PFCompact (PFBinary sr' sw')
        strict bow (cnext t) true true (fun _ => True) cokv (bow_val sw') (bow_exc sw')
        (fun name ty seq s o Ht _ => bow_msg sw' name ty seq s o Ht I) bow_end bow_nop
        (cnext_msg t) (cnext_val t) (cnext_end t)); auto; discriminate.
    + apply (plain_step compactR compactW x M cf fuel errtext handle fs PFCompact PFCompact
        strict cow (cnext t) false true exc_ok cokv cow_val cow_exc cow_msg cow_end cow_nop
        (cnext_msg t) (cnext_val t) (cnext_end t)); auto.
Qed.

(** The loop, stopped after [n] rounds: the state when the last answer was sent. *)
Inductive rounds_of {SR SW H} (step : H -> SR -> SW -> outcome (@pout SR SW H)) : nat -> H -> SR -> SW -> H -> SR -> SW -> Prop :=
| ro_none h si so : rounds_of step 0 h si so h si so
| ro_more n h si so p h' si' so' : step h si so = Ok p -> p_success p = true ->
    rounds_of step n (p_h p) (p_in p) (p_out p) h' si' so' -> rounds_of step (S n) h si so h' si' so'
| ro_last h si so p : step h si so = Ok p -> p_success p = false ->
    rounds_of step 1 h si so (p_h p) (p_in p) (p_out p).

(** ** C116 *)

(** Binary or compact on either side, bytes in any pieces.  The first request there is answered (C103), the others and
    [t] are left as they are. *)
Theorem C116_server : forall H intw x M cf fuel errtext
    (handle : H -> bytes -> list any -> (list (Z * any) * option bytes) * H) fs ip op strict r rs t h si so o,
  header_ok ip strict -> service_ok x fuel handle fs op -> request_ok x fuel fs ip op r ->
  holds_then intw x ip strict t si (r :: rs) -> plain_out op so o ->
  exists p a, process (rd_proto (GetReader intw TFPlain ip)) (wr_proto (GetWriter TFPlain op))
      (wr_flush (GetWriter TFPlain op)) x M cf fuel errtext handle fs h si so = Ok p /\
    answers x handle h r a (p_h p) (p_success p) /\ plain_out op (p_out p) (o ++ told op a) /\
    holds_then intw x ip strict t (p_in p) rs /\ (rs = [] -> yet intw ip (p_in p) = t).
Proof.
  intros H intw x M cf fuel errtext handle fs ip op strict r rs t h si so o Hd Sv Kr Hi Ho.
  destruct (server_step H intw x M cf fuel errtext handle fs ip op strict t Hd Sv r rs h si so o Kr Hi Ho)
    as (p & a & P & A & Hi' & Ho').
  exists p, a. split; [exact P|]. split; [exact A|]. split; [exact Ho'|]. split; [exact Hi'|].
  intros ->. exact (holds_last _ _ _ _ _ _ Hi').
Qed.
Print Assumptions C116_server.

(** A whole connection: when the requests there have been answered, [t] has not been touched. *)
Theorem C116_connection : forall H intw x M cf fuel errtext
    (handle : H -> bytes -> list any -> (list (Z * any) * option bytes) * H) fs ip op strict t,
  header_ok ip strict -> service_ok x fuel handle fs op ->
  forall reqs h si so o, Forall (request_ok x fuel fs ip op) reqs ->
  holds_then intw x ip strict t si reqs -> plain_out op so o ->
  exists n h' si' so' out left,
    rounds_of (process (rd_proto (GetReader intw TFPlain ip)) (wr_proto (GetWriter TFPlain op))
      (wr_flush (GetWriter TFPlain op)) x M cf fuel errtext handle fs) n h si so h' si' so' /\
    n = length out /\ session x handle h reqs out h' left /\ plain_out op so' (o ++ concat (map (told op) out)) /\
    holds_then intw x ip strict t si' left /\ (left = [] -> yet intw ip si' = t).
Proof.
  intros H intw x M cf fuel errtext handle fs ip op strict t Hd Sv.
  induction reqs as [|r reqs IH]; intros h si so o K Hi Ho.
  - exists 0%nat, h, si, so, [], []. split; [constructor|]. split; [reflexivity|]. split; [constructor|].
    cbn. rewrite app_nil_r. split; [exact Ho|]. split; [exact Hi|]. intros _. exact (holds_last _ _ _ _ _ _ Hi).
  - inversion K as [|? ? K1 K2]; subst.
    destruct (server_step H intw x M cf fuel errtext handle fs ip op strict t Hd Sv r reqs h si so o K1 Hi Ho)
      as (p & a & P & A & Hi' & Ho').
    destruct (p_success p) eqn:Ps.
    + destruct (IH (p_h p) (p_in p) (p_out p) _ K2 Hi' Ho') as (n & h' & si' & so' & out & left & Ro & Ln & Se & Ho2 & Hi2 & Hl).
      exists (S n), h', si', so', (a :: out), left. split; [eapply ro_more; eassumption|]. split; [cbn; congruence|].
      split; [econstructor; eassumption|]. cbn [map concat]. rewrite app_assoc. auto.
    + exists 1%nat, (p_h p), (p_in p), (p_out p), [a], reqs. split; [apply ro_last; assumption|]. split; [reflexivity|].
      split; [apply se_last, A|]. cbn [map concat]. rewrite app_nil_r. split; [exact Ho'|]. split; [exact Hi'|].
      intros ->. exact (holds_last _ _ _ _ _ _ Hi').
Qed.
Print Assumptions C116_connection.

(** ** A client *)

(** The reply is there, in any pieces, and then comes [t]: the caller gets the result, [t] is left as it is. *)
Theorem C116_binary_reply : forall x M cf fuel sr strict f seq attrs rf t s,
  orders x -> strict = true \/ sr = false -> func_ok f -> in_s 32 seq ->
  (forall m, chosen f attrs m -> kept x (m_ty m) (attribute attrs (m_id m)) \/
                                 absent (m_ty m) (attribute attrs (m_id m))) ->
  (forall rf, reply x f attrs rf -> (need (VStruct rf) <= fuel)%nat) -> reply x f attrs rf ->
  brings t (bmsg strict (fn_name f) REPLY seq ++ sb_val (VStruct rf)) s ->
  exists attrs', recv_on (binaryR sr) x M cf fuel f seq s = Ok ((attrs', None), t) /\ returned f attrs attrs'.
Proof.
  intros x M cf fuel sr strict f seq attrs rf t s Ho Hst Ff Hs Ka Kn Rp B.
  destruct (recv_reply (binaryR sr) (binaryW strict) nop x M cf fuel ex_handle true true false bow bow (bnext t) (bnext t)
    sb_val (bmsg strict) [] cokm (fun _ => True) func_ok (fun _ => True)
    (fun name ty q s o Ht _ => bow_msg strict name ty q s o Ht I) bow_end bow_nop
    (fun name ty q v s rest Ht Km _ _ => bnext_msg t sr strict name ty q s (sb_val v ++ rest) Hst Ht Km) (bnext_val t sr) (bnext_end t sr)
    (fun f H => H) okm_of Ho f seq s [] attrs rf Ff) as (attrs' & s' & E & N & Re); auto.
  - split; [intros m _ D; discriminate|]. split; [exact Ka|]. intros r0 R0. split; [exact I|apply Kn, R0].
  - rewrite app_nil_r. exact B.
  - apply brings_nil in N. subst s'. exists attrs'. auto.
Qed.
Print Assumptions C116_binary_reply.
Theorem C116_compact_reply : forall x M cf fuel f seq attrs rf t s c,
  orders x -> func_ok f -> in_s 32 seq ->
  (forall m, chosen f attrs m -> kept x (m_ty m) (attribute attrs (m_id m)) \/
                                 absent (m_ty m) (attribute attrs (m_id m))) ->
  (forall rf, reply x f attrs rf -> cokv (VStruct rf) /\ (need (VStruct rf) <= fuel)%nat) -> reply x f attrs rf ->
  boolValueIsNotNull c = false -> brings t (sc_message (fn_name f) REPLY seq ++ sc_val (VStruct rf)) s ->
  exists attrs' c', recv_on compactR x M cf fuel f seq (s, c) = Ok ((attrs', None), (t, c')) /\ returned f attrs attrs'.
Proof.
  intros x M cf fuel f seq attrs rf t s c Ho Ff Hs Ka Kn Rp Nb B.
  destruct (recv_reply compactR compactW nop x M cf fuel ex_handle true true true cow cow (cnext t) (cnext t)
    sc_val sc_message [] cokm cokv func_ok (fun _ => True)
    cow_msg cow_end cow_nop
    (fun name ty q v s rest Ht Km _ _ => cnext_msg t name ty q s (sc_val v ++ rest) Ht Km) (cnext_val t) (cnext_end t)
    (fun f H => H) okm_of Ho f seq (s, c) [] attrs rf Ff) as (attrs' & [s' c'] & E & [N _] & Re); auto.
  - split; [intros m _ D; discriminate|]. split; [exact Ka|]. exact Kn.
  - split; [rewrite app_nil_r; exact B|exact Nb].
  - apply brings_nil in N. cbn [fst] in N. subst s'. exists attrs', c'. auto.
Qed.
Print Assumptions C116_compact_reply.

(** ** The JSON protocols *)

Lemma fill_next : forall b c d r, (length (b_un b) <= 3)%nat -> (length c <= 4000)%nat -> b_rt b = (c, d) :: r ->
  exists af, b_fill b = MkB [] (b_un b ++ c) af (match d with Some _ => d | None => b_err b end) r.
Proof.
  intros b c d r Hu Hc Hr. unfold b_fill. rewrite Hr. cbn [tread].
  replace (buf_size - length (b_un b) <? length c)%nat with false; [eexists; reflexivity|].
  symmetry. apply Nat.ltb_ge. change buf_size with (Z.to_nat 4096). revert Hu Hc. unfold bytes. generalize (length (b_un b)) (length c).
  clear. intros n m H K. lia.
Qed.
Lemma peek_next : forall b c d r, length (b_un b) = 3%nat -> b_err b = None ->
  (c = [] /\ d <> None \/ c <> [] /\ d = None /\ (length c <= 4000)%nat) -> b_rt b = (c, d) :: r ->
  exists ok b', b_peek 4 b = (firstn 4 (b_un b ++ c), ok, b') /\ b_un b' = b_un b ++ c /\ b_rt b' = r.
Proof.
  intros b c d r Hu He Hc Hr.
  destruct (fill_next b c d r) as [af Ef]; [rewrite Hu; lia| |exact Hr|].
  { destruct Hc as [[-> _]|(_ & _ & L)]; [cbn; lia|exact L]. }
  unfold b_peek. rewrite Hr. cbn [length b_peek_loop]. rewrite Hu, He. change (3 <? 4)%nat with true. cbv iota. rewrite Ef.
  cbn [b_un b_err]. rewrite app_length, Hu.
  destruct Hc as [[-> Hd]|(Hn & -> & L)].
  - destruct d as [d|]; [|congruence]. change (3 + length (@nil Z) <? 4)%nat with true. cbv iota. cbn [b_un].
    rewrite app_length, Hu. change (3 + length (@nil Z) <? 4)%nat with true. cbv iota.
    rewrite firstn_all2 by (rewrite app_length, Hu; cbn; lia). eexists _, _. split; [reflexivity|]. split; reflexivity.
  - destruct c as [|c0 c]; [congruence|].
    replace (3 + length (c0 :: c) <? 4)%nat with false by (symmetry; apply Nat.ltb_ge; cbn [length]; lia).
    cbn [b_un]. rewrite app_length, Hu.
    replace (3 + length (c0 :: c) <? 4)%nat with false by (symmetry; apply Nat.ltb_ge; cbn [length]; lia).
    eexists _, _. split; [reflexivity|]. split; reflexivity.
Qed.

(** The last struct of a message, when it is empty: the brace is looked at with Peek(4), but only three bytes of the
    message are left.  Whatever comes next - a timeout, or more bytes -: a Read is made for it. *)
Theorem C116_json_brace_refuted : forall b l r c d,
  b_un b = lit ",{}]" -> b_err b = None ->
  (c = [] /\ d <> None \/ c <> [] /\ d = None /\ (length c <= 4000)%nat) -> b_rt b = (c, d) :: r ->
  exists b', ReadStructBegin (b, InList :: l) = Ok ([], None, (b', ObjFirst :: InList :: l)) /\
    b_rt b' = r /\ b_un b' = lit "}]" ++ c.
Proof.
  intros [bf un af er tr] l r c d Hu He Hc Hr. cbn [b_un b_err b_rt] in Hu, He, Hr. subst un er tr.
  unfold ReadStructBegin, ParseObjectStart, pre.
  assert (Ep : ParsePreValue (MkB bf (lit ",{}]") af None ((c, d) :: r), InList :: l) =
    Ok (None, (skip_ws (b_advance 1 (skip_ws (MkB bf (lit ",{}]") af None ((c, d) :: r)))), InList :: l))) by reflexivity.
  rewrite Ep. clear Ep. cbn [obind].
  set (b1 := skip_ws _).
  assert (Hb : b_un b1 = lit "{}]" /\ b_err b1 = None /\ b_rt b1 = (c, d) :: r) by (repeat split).
  clearbody b1. destruct Hb as (B1 & B2 & B3).
  destruct (peek_next b1 c d r) as (ok & b2 & Ek & U2 & R2); [rewrite B1; reflexivity|exact B2|exact Hc|exact B3|].
  rewrite Ek, B1 in *. cbn [obind]. change (firstn 4 (lit "{}]" ++ c)) with (123 :: firstn 3 (lit "}]" ++ c)). cbv iota. cbn [obind].
  eexists. split; [reflexivity|]. unfold b_byte. cbn [b_byte_loop]. rewrite U2. cbn [lit map list_ascii_of_string app snd].
  change (lit "{}]" ++ c) with (123 :: lit "}]" ++ c) in *. cbv iota. rewrite U2. cbn [snd b_advance b_rt b_un]. rewrite U2.
  split; [exact R2|reflexivity].
Qed.
Print Assumptions C116_json_brace_refuted.

(** The tutorial's server, asked to ping over TJSONProtocol: it answers, but not before the Read that follows the request
    has returned; here it returned with an error, such as a timeout.  A call with arguments is answered at once. *)
Definition asked_json (f : bytes) (v : tval) (t : rt) :=
  process (jsonR J0) (jsonW J0) nop ext0 64 5 40 errtext0 tut_handle calculator []
    (json_r ((jmsg J0 f CALL 0 v, None) :: t)) (json_w (MkWt [] [])).
Theorem C116_json_server_refuted : forall e e',
  (match asked_json (lit "ping") (VStruct []) [([], Some e); ([], Some e')] with
   | Ok p => p_success p = true /\ b_rt (fst (p_in p)) = [([], Some e')] /\ w_out (fst (p_out p)) = jmsg J0 (lit "ping") REPLY 0 (VStruct [])
   | _ => False
   end) /\
  (match asked_json (lit "add") (VStruct [(1, VI32 2); (2, VI32 3)]) [([], Some e); ([], Some e')] with
   | Ok p => p_success p = true /\ b_rt (fst (p_in p)) = [([], Some e); ([], Some e')] /\
             w_out (fst (p_out p)) = jmsg J0 (lit "add") REPLY 0 (VStruct [(0, VI32 5)])
   | _ => False
   end).
Proof. intros e e'. vm_compute. auto 10. Qed.
Print Assumptions C116_json_server_refuted.
(** The client of it: the reply to a ping is complete, and RecvPing reads on. *)
Theorem C116_json_client_refuted : forall e e',
  match recv_on (jsonR J0) ext0 64 5 40 f_ping 0 (json_r ((jmsg J0 (lit "ping") REPLY 0 (VStruct []), None) :: [([], Some e); ([], Some e')])) with
  | Ok (r, s) => r = ([], None) /\ b_rt (fst s) = [([], Some e')]
  | _ => False
  end.
Proof. intros e e'. vm_compute. auto. Qed.
Print Assumptions C116_json_client_refuted.

(** Three requests in pieces of two bytes, and then a timeout: the hypotheses are met for both protocols; the first call
    of Process reads the first request, which ends within a piece or not, and no more. *)
Example C116_case :
  let t : rt := [([], Some (EOther 7))] in
  (forall ip op strict, service_ok ext0 40 ex_handle ex_fs op /\ Forall (request_ok ext0 40 ex_fs ip op) ex_reqs /\
     brings t (concat (ex_wires ip strict)) (ex_two (concat (ex_wires ip strict)) ++ t)) /\
  (let b := nth 0 (ex_wires NewTBinaryProtocolFactoryDefault true) [] in
   match process (binaryR true) (binaryW true) nop ext0 64 5 40 errtext0 ex_handle ex_fs 7 (ex_two b ++ t) (MkWt [] []) with
   | Ok p => p_success p = true /\ p_in p = t
   | _ => False
   end) /\
  (let b := nth 0 (ex_wires PFCompact true) [] in
   match process compactR (binaryW true) nop ext0 64 5 40 errtext0 ex_handle ex_fs 7 (ex_two b ++ t, cinit) (MkWt [] []) with
   | Ok p => p_success p = true /\ fst (p_in p) = t
   | _ => False
   end) /\
  (exists rf, reply ext0 ex_add [(0, AInt64 12); (1, ANil)] rf /\
     recv_on (binaryR true) ext0 64 5 40 ex_add 9 ((bmsg true [97; 100; 100] REPLY 9 ++ sb_val (VStruct rf), None) :: t) =
     Ok (([(0, AInt64 12); (1, ANil)], None), t)).
Proof.
  intro t. split; [|split; [vm_compute; auto|split; [vm_compute; auto|]]].
  - intros ip op strict. split; [apply ex_service|]. split; [apply ex_requests|]. exists (ex_two (concat (ex_wires ip strict))).
    split; [apply benignb_ok; destruct ip as [[] []|], strict; vm_compute; reflexivity|].
    split; [destruct ip as [[] []|], strict; vm_compute; reflexivity|reflexivity].
  - exists [(0, VI64 12)]. split; [|vm_compute; reflexivity].
    eapply rp_val; [intros m [Hm Nm]; destruct Hm as [<-|[]]; apply Nm; reflexivity|reflexivity|].
    constructor. unfold in_s. cbn. lia.
Qed.
