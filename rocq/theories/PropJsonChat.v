(** C123 for TJSONProtocol: any number of calls of one client. *)
From Coq Require Import ZArith List Bool Lia String Permutation.
From Coq Require Import ZifyBool ZifyNat.
From Verif Require Import Base Arith Errors Transport TransportProofs Proto Values WfDec Access Strconv JsonText JsonTextProofs
  Skip SkipProofs ReadProg F64 TField GoVal Names Compare TList TSet TMap Depth Gen GenSpec GenProofs GenInst GenRound Buffer Framed FramedProofs
  BinaryProofs BinarySpec Binary BinaryMsg PropBinary
  BufIO BufRead BufReadProofs Json JsonSpec JsonWrite JsonRead JsonReadVal JsonForm JsonTotal JsonSkip PropJson PropJsonTotal PropGen PropJsonGen
  Over Het OverSim OverInst OverRpc Unframe
  AppExc AppExcProofs PropRpc Rpc RpcProofs PropService PropJsonRpc Serve ServeProofs PropServe PropWork PropCalm PropCalmJson PropAnswer
  Compact CompactSkip Tutorial PropTutorial PropUnframe PropHalt UnframeCompact PropHaltClient PropCalmClient.
From Verif Require Import CompactSpec CompactProofs CompactRead CompactStruct CompactExact PropServeCompact PropCalmCompact.
Import ListNotations.
Local Open Scope list_scope.
Local Notation length := List.length.
Local Notation concat := List.concat.
Open Scope Z_scope.

(** The requests of the calls, numbered from the one after [seq] on. *)
Inductive jasked (J : jenv) (x : ext) : Z -> list (func * list any) -> bytes -> Prop :=
| jasked_nil seq : jasked J x seq [] []
| jasked_cons seq f args cs v b : wireof x (TyStruct (args_name f) (fn_args f)) (args_val f args) v ->
    jasked J x (wraps 32 (seq + 1)) cs b ->
    jasked J x seq ((f, args) :: cs) (message_text J (fn_name f) CALL (wraps 32 (seq + 1)) ++ jenc J v ++ [93] ++ b).
(** The answers, as in C123_session. *)
Inductive jheard (J : jenv) (x : ext) M cf fuel : Z -> jr -> list (func * list any) -> list cres -> jr -> Prop :=
| jheard_nil seq r : jheard J x M cf fuel seq r [] [] r
| jheard_oneway seq r f args cs rs r' : fn_oneway f = true -> jheard J x M cf fuel (wraps 32 (seq + 1)) r cs rs r' ->
    jheard J x M cf fuel seq r ((f, args) :: cs) (([], None) :: rs) r'
| jheard_reply seq r f args cs c r1 rs r' : fn_oneway f = false ->
    recv_on (jsonR J) x M cf fuel f (wraps 32 (seq + 1)) r = Ok (c, r1) ->
    jheard J x M cf fuel (wraps 32 (seq + 1)) r1 cs rs r' ->
    jheard J x M cf fuel seq r ((f, args) :: cs) (c :: rs) r'.

(** Any number of calls of functions without containers in their results and without binary in their arguments return
    over TJSONProtocol, whatever the peer sends, if no error comes together with data.  The requests are written in order,
    numbered one by one, and do not depend on what arrives. *)
Theorem C123_json_session : forall J x M cf fuel cs o (r : rt),
  orders x -> clean r -> (2 * length (content r) + 2 <= fuel)%nat ->
  (forall f args, In (f, args) cs -> func_ok f /\ kept_args x f args /\
     (forall v, wireof x (TyStruct (args_name f) (fn_args f)) (args_val f args) v -> (need v <= fuel)%nat) /\
     (forall m, In m (fn_args f) -> no_binary (m_ty m)) /\
     (forall m, In m (result_members f) -> flat (m_ty m))) ->
  exists rs c' w' b,
    chat (jsonR J) (jsonW J) nop jfreshR jfreshW x M cf fuel cs new_client_factory
      (MkWorld (json_w (MkWt o [])) (json_w (MkWt [] [])) (json_r r) (json_r [])) = Ok (rs, c', w') /\
    length rs = length cs /\ jasked J x 0 cs b /\ o_own w' = json_w (MkWt (o ++ b) []) /\
    jheard J x M cf fuel 0 (json_r r) cs rs (i_own w').
Proof.
  intros J x M cf fuel cs o r Ho Cl L A. destruct (fresh_SI True r (fun _ => Cl)) as (_ & S2 & _ & R2). rewrite <- R2 in L. clear R2 Cl.
  assert (G : forall c w o, c_factory c = true -> c_in c = Some FromFactory -> c_out c = Some FromFactory ->
    jow (o_own w) o -> SI True (i_own w) -> (2 * srem (i_own w) + 2 <= fuel)%nat ->
    exists rs c' w' b, chat (jsonR J) (jsonW J) nop jfreshR jfreshW x M cf fuel cs c w = Ok (rs, c', w') /\
    length rs = length cs /\ jasked J x (c_seq c) cs b /\ jow (o_own w') (o ++ b) /\
    jheard J x M cf fuel (c_seq c) (i_own w) cs rs (i_own w')).
  2:{ apply (G new_client_factory (MkWorld (json_w (MkWt o [])) (json_w (MkWt [] [])) (json_r r) (json_r [])) o);
      try reflexivity; assumption. }
  clear o r S2 L.
  induction cs as [|[f args] cs IH]; intros c w o Cf Ci Co Ow Hs L.
  { exists [], c, w, []. split; [reflexivity|]. split; [reflexivity|]. split; [constructor|]. rewrite app_nil_r. split; [exact Ow|constructor]. }
  specialize (IH (fun f0 a0 H0 => A f0 a0 (or_intror H0))).
  destruct (A f args (or_introl eq_refl)) as (Fok & [La Ka] & Nf & Nb & P).
  assert (Aok : args_ok x fuel false false (fun _ => True) f args).
  { split; [exact La|]. split; [intros _; apply nb_struct; exact Nb|]. split; [exact Ka|]. auto. }
  set (dummy := fun (h : unit) (_ : bytes) (_ : list any) => (([] : list (Z * any), @None bytes), h)).
  assert (Fr : forall s o, jow s o -> jow (jfreshW s) o) by (intros s o0 ->; reflexivity).
  destruct (send_ok (jsonR J) (jsonW J) nop jfreshW x cf fuel dummy false false false
    jow jow' (fun (_ : jr) (_ : bytes) => False) (fun (_ : jr) (_ : bytes) => False) (jenc J) (message_text J) [93] (fun _ _ => True) (fun _ => True)
    func_ok (fun _ => True) (jow_val J)
    (jow_msg J) (jow_end J) jow_nop
    (fun _ _ _ _ _ _ _ _ _ _ F => match F with end) (fun _ _ _ _ _ F => match F with end) (fun _ _ _ F => match F with end)
    Fr (fun f H => H) (fun _ _ _ _ => I) Ho f args c w o Fok Aok Cf Co Ow) as (wv & w1 & E & Wv & O1 & _ & I1 & _).
  cbn [chat]. rewrite E. cbn [obind].
  assert (N : exists r c2 w2, (if fn_oneway f then Ok (([], None), MkClient true (c_in c) (Some FromFactory) (wraps 32 (c_seq c + 1)), w1)
      else recv (jsonR J) jfreshR x M cf fuel f (MkClient true (c_in c) (Some FromFactory) (wraps 32 (c_seq c + 1))) w1) =
      Ok (r, c2, w2) /\ c_factory c2 = true /\ c_in c2 = Some FromFactory /\ c_out c2 = Some FromFactory /\
      c_seq c2 = wraps 32 (c_seq c + 1) /\ o_own w2 = o_own w1 /\
      (if fn_oneway f then r = ([], None) /\ i_own w2 = i_own w
       else recv_on (jsonR J) x M cf fuel f (wraps 32 (c_seq c + 1)) (i_own w) = Ok (r, i_own w2)) /\
      SI True (i_own w2) /\ (srem (i_own w2) <= srem (i_own w))%nat).
  { destruct (fn_oneway f).
    - eexists _, _, _. split; [reflexivity|]. cbn. rewrite I1. repeat split; try assumption; try apply Hs; lia.
    - unfold recv. cbn [c_in c_seq]. rewrite Ci, I1.
      destruct (recv_returns _ _ _ _ (returning_json J) M x cf fuel f (wraps 32 (c_seq c + 1)) (i_own w) Hs
        (fun m Hm => flat_safe _ (P m Hm)) L) as (r & s' & Er & Hs' & Lr).
      rewrite Er. cbn [obind]. eexists _, _, _. split; [reflexivity|]. cbn. repeat split; try assumption; apply Hs'. }
  destruct N as (r & c2 & w2 & En & F2 & Ci2 & Co2 & S2 & Ow2 & Hr & Hs2 & L2). rewrite En. cbn [obind].
  destruct (IH c2 w2 (o ++ message_text J (fn_name f) CALL (wraps 32 (c_seq c + 1)) ++ jenc J wv ++ [93]) F2 Ci2 Co2
    ltac:(rewrite Ow2; exact O1) Hs2 ltac:(lia)) as (rs & c3 & w3 & b & E3 & Ln & As & O3 & Hd).
  exists (r :: rs), c3, w3, (message_text J (fn_name f) CALL (wraps 32 (c_seq c + 1)) ++ jenc J wv ++ [93] ++ b).
  rewrite E3. split; [reflexivity|]. split; [cbn; rewrite Ln; reflexivity|]. split; [constructor; [exact Wv|rewrite <- S2; exact As]|].
  split; [rewrite <- !app_assoc in O3; exact O3|]. rewrite S2 in Hd.
  destruct (fn_oneway f) eqn:Eo; [destruct Hr as [-> Hr]; rewrite Hr in Hd; apply jheard_oneway; assumption|].
  eapply jheard_reply; [exact Eo|exact Hr|exact Hd].
Qed.
Print Assumptions C123_json_session.
(** Two calls of add to a peer that sends a reply to the first cut into pieces, then garbage. *)
Definition ex_jreply1 : bytes := lit "[1,""add"",2,1,{""0"":{""i64"":12}}]".
Example C123_json_session_case :
  let r := [(firstn 9 ex_jreply1, None); (skipn 9 ex_jreply1, None); (lit "[7", None); ([], Some EEof)] : rt in
  let cs := [(ex_add, ex_args); (ex_add, ex_args)] in
  (orders ext0 /\ (2 * length (content r) + 2 <= 80)%nat /\ clean r) /\
  (forall f args, In (f, args) cs -> func_ok f /\ kept_args ext0 f args /\
     (forall v, wireof ext0 (TyStruct (args_name f) (fn_args f)) (args_val f args) v -> (need v <= 80)%nat) /\
     (forall m, In m (fn_args f) -> no_binary (m_ty m)) /\
     (forall m, In m (result_members f) -> flat (m_ty m))) /\
  exists c' w' e, chat (jsonR J0) (jsonW J0) nop jfreshR jfreshW ext0 64 5 80 cs new_client_factory
      (MkWorld (json_w (MkWt [] [])) (json_w (MkWt [] [])) (json_r r) (json_r [])) =
    Ok ([([(0, AInt64 12); (1, ANil)], None); ([(0, AInt64 0); (1, ANil)], Some (RErr e))], c', w') /\ c_seq c' = 2.
Proof.
  cbv zeta. split; [split; [exact ext0_orders|]; split; [vm_compute; lia|repeat (apply Forall_cons; [cbn; auto|]); apply Forall_nil]|]. split.
  - intros f args [E|[E|[]]]; injection E; intros; subst; (split; [apply ex_ok; cbn; auto|]; split; [exact ex_args_kept|]; split;
      [intros v Wv; rewrite (wireof_fun _ _ _ _ _ Wv ex_args_wire); cbn; lia|]);
      (split; intros m Hm; cbn in Hm; repeat (destruct Hm as [<-|Hm]; [cbn; repeat constructor|]); try destruct Hm);
      try (intros m Hm; cbn in Hm; repeat (destruct Hm as [<-|Hm]; [cbn; repeat constructor|]); destruct Hm).
  - eexists _, _, _. split; [vm_compute; reflexivity|]. reflexivity.
Qed.
