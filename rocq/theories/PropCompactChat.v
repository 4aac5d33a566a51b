(** C123 for TCompactProtocol: any number of calls of one client. *)
From Coq Require Import ZArith List Bool Lia String Permutation.
From Coq Require Import ZifyBool ZifyNat.
From Verif Require Import Base Arith Errors Transport TransportProofs Proto Values WfDec Access Strconv JsonText JsonTextProofs
  Skip SkipProofs ReadProg F64 TField GoVal Names Compare TList TSet TMap Depth Gen GenSpec GenProofs GenInst GenRound Buffer Framed FramedProofs
  BinaryProofs BinarySpec Binary BinaryMsg PropBinary
  BufIO BufRead BufReadProofs Json JsonSpec JsonWrite JsonRead JsonReadVal JsonForm JsonTotal JsonSkip PropJson PropJsonTotal PropGen PropJsonGen
  Over Het OverSim OverInst OverRpc Unframe
  AppExc AppExcProofs PropRpc Rpc RpcProofs PropService PropJsonRpc Serve ServeProofs PropServe PropWork PropCalm PropCalmJson PropAnswer
  Compact CompactSkip Tutorial PropTutorial PropUnframe PropHalt UnframeCompact PropHaltClient PropCalmClient.
From Verif Require Import CompactSpec CompactProofs CompactRead CompactStruct CompactExact PropServeCompact PropCalmCompact.
Import ListNotations.
Local Open Scope list_scope.
Local Notation length := List.length.
Local Notation concat := List.concat.
Open Scope Z_scope.

(** The requests of the calls, numbered from the one after [seq] on. *)
Inductive casked (x : ext) : Z -> list (func * list any) -> bytes -> Prop :=
| casked_nil seq : casked x seq [] []
| casked_cons seq f args cs v b : wireof x (TyStruct (args_name f) (fn_args f)) (args_val f args) v ->
    casked x (wraps 32 (seq + 1)) cs b ->
    casked x seq ((f, args) :: cs) (sc_message (fn_name f) CALL (wraps 32 (seq + 1)) ++ sc_val v ++ b).
(** The answers, as in C123_session. *)
Inductive cheard (x : ext) M cf fuel : Z -> cr -> list (func * list any) -> list cres -> cr -> Prop :=
| cheard_nil seq r : cheard x M cf fuel seq r [] [] r
| cheard_oneway seq r f args cs rs r' : fn_oneway f = true -> cheard x M cf fuel (wraps 32 (seq + 1)) r cs rs r' ->
    cheard x M cf fuel seq r ((f, args) :: cs) (([], None) :: rs) r'
| cheard_reply seq r f args cs c r1 rs r' : fn_oneway f = false ->
    recv_on compactR x M cf fuel f (wraps 32 (seq + 1)) r = Ok (c, r1) ->
    cheard x M cf fuel (wraps 32 (seq + 1)) r1 cs rs r' ->
    cheard x M cf fuel seq r ((f, args) :: cs) (c :: rs) r'.

(** Any number of calls of functions without containers in their results and without binary in their arguments return
    over TCompactProtocol, whatever the peer sends, if no varint in it is longer than four bytes.  The requests are
    written in order, numbered one by one, and do not depend on what arrives.
    Missing: longer varints, with which a client may panic (C123_compact_case). *)
Theorem C123_compact_session_partial : forall x M cf fuel cs c w o,
  orders x -> c_factory c = true -> c_in c = Some FromFactory -> c_out c = Some FromFactory ->
  cow (o_own w) o -> (2 * clen (i_own w) + 2 <= fuel)%nat -> tame (content (fst (i_own w))) ->
  (forall f args, In (f, args) cs -> func_ok f /\ kept_args x f args /\
     (forall v, wireof x (TyStruct (args_name f) (fn_args f)) (args_val f args) v -> (need v <= fuel)%nat) /\
     (forall m, In m (fn_args f) -> no_binary (m_ty m)) /\
     (forall m, In m (result_members f) -> flat (m_ty m))) ->
  exists rs c' w' b,
    chat compactR compactW nop cfreshR cfreshW x M cf fuel cs c w = Ok (rs, c', w') /\
    length rs = length cs /\ casked x (c_seq c) cs b /\ cow (o_own w') (o ++ b) /\
    cheard x M cf fuel (c_seq c) (i_own w) cs rs (i_own w').
Proof.
  intros x M cf fuel cs c w o Ho. revert c w o.
  induction cs as [|[f args] cs IH]; intros c w o Cf Ci Co Ow L Ta A.
  { exists [], c, w, []. split; [reflexivity|]. split; [reflexivity|]. split; [constructor|]. rewrite app_nil_r. split; [exact Ow|constructor]. }
  destruct (A f args (or_introl eq_refl)) as (Fok & [La Ka] & Nf & Nb & P).
  assert (Aok : args_ok x fuel false true (fun _ => True) f args).
  { split; [exact La|]. split; [intros _; apply nb_struct; exact Nb|]. split; [exact Ka|]. auto. }
  set (dummy := fun (h : unit) (_ : bytes) (_ : list any) => (([] : list (Z * any), @None bytes), h)).
  assert (Fr : forall s o, cow s o -> cow (cfreshW s) o) by (intros s o0 (c0 & -> & _); exists cinit; split; reflexivity).
  destruct (send_ok compactR compactW nop cfreshW x cf fuel dummy false true true
    cow cow (fun (_ : cr) (_ : bytes) => False) (fun (_ : cr) (_ : bytes) => False) sc_val sc_message [] cokm (fun _ => True) func_ok (fun _ => True) cow_val
    cow_msg cow_end cow_nop
    (fun _ _ _ _ _ _ _ _ _ _ F => match F with end) (fun _ _ _ _ _ F => match F with end) (fun _ _ _ F => match F with end)
    Fr (fun f H => H) okm_of Ho f args c w o Fok Aok Cf Co Ow) as (wv & w1 & E & Wv & O1 & _ & I1 & _).
  rewrite app_nil_r in O1. cbn [chat]. rewrite E. cbn [obind].
  assert (N : exists r c2 w2, (if fn_oneway f then Ok (([], None), MkClient true (c_in c) (Some FromFactory) (wraps 32 (c_seq c + 1)), w1)
      else recv compactR cfreshR x M cf fuel f (MkClient true (c_in c) (Some FromFactory) (wraps 32 (c_seq c + 1))) w1) =
      Ok (r, c2, w2) /\ c_factory c2 = true /\ c_in c2 = Some FromFactory /\ c_out c2 = Some FromFactory /\
      c_seq c2 = wraps 32 (c_seq c + 1) /\ o_own w2 = o_own w1 /\
      (if fn_oneway f then r = ([], None) /\ i_own w2 = i_own w
       else recv_on compactR x M cf fuel f (wraps 32 (c_seq c + 1)) (i_own w) = Ok (r, i_own w2)) /\
      left_of (fst (i_own w)) (fst (i_own w2))).
  { destruct (fn_oneway f).
    - eexists _, _, _. split; [reflexivity|]. cbn. rewrite I1. repeat split; try assumption. apply left_refl.
    - unfold recv. cbn [c_in c_seq]. rewrite Ci, I1. destruct (i_own w) as [r0 c0]. cbn [fst] in Ta. unfold clen in L. cbn [fst] in L.
      destruct (recv_compact r0 (tame_varint _ Ta) x M cf fuel f (wraps 32 (c_seq c + 1)) c0 P L) as (r & s' & Er & [Lr _] & _).
      rewrite Er. cbn [obind]. eexists _, _, _. split; [reflexivity|]. cbn. repeat split; assumption. }
  destruct N as (r & c2 & w2 & En & F2 & Ci2 & Co2 & S2 & Ow2 & Hr & L2). rewrite En. cbn [obind].
  pose proof (left_len _ _ L2) as L3.
  destruct (IH c2 w2 (o ++ sc_message (fn_name f) CALL (wraps 32 (c_seq c + 1)) ++ sc_val wv) F2 Ci2 Co2
    ltac:(rewrite Ow2; exact O1) ltac:(unfold clen in *; lia)
    ltac:(destruct L2 as [d Ed]; rewrite Ed in Ta; eapply tame_app, Ta)
    (fun f0 a0 H0 => A f0 a0 (or_intror H0))) as (rs & c3 & w3 & b & E3 & Ln & As & O3 & Hd).
  exists (r :: rs), c3, w3, (sc_message (fn_name f) CALL (wraps 32 (c_seq c + 1)) ++ sc_val wv ++ b).
  rewrite E3. split; [reflexivity|]. split; [cbn; rewrite Ln; reflexivity|]. split; [constructor; [exact Wv|rewrite <- S2; exact As]|].
  split; [rewrite <- !app_assoc in O3; exact O3|]. rewrite S2 in Hd.
  destruct (fn_oneway f) eqn:Eo; [destruct Hr as [-> Hr]; rewrite Hr in Hd; apply cheard_oneway; assumption|].
  eapply cheard_reply; [exact Eo|exact Hr|exact Hd].
Qed.
Print Assumptions C123_compact_session_partial.
(** Two calls of add to a peer that sends a reply to the first cut into pieces, then garbage. *)
Definition ex_creply1 : bytes := [130; 65; 1; 3] ++ lit "add" ++ [6; 0; 24; 0].
Example C123_compact_session_case :
  let w := MkWorld (MkWt [] [], cinit) (MkWt [] [], cinit)
    ([(firstn 3 ex_creply1, None); (skipn 3 ex_creply1 ++ [1; 2; 3], None); ([4], Some EEof)] : rt, cinit) ([] : rt, cinit) in
  let cs := [(ex_add, ex_args); (ex_add, ex_args)] in
  (orders ext0 /\ (2 * clen (i_own w) + 2 <= 80)%nat /\ tame (content (fst (i_own w))) /\ cow (o_own w) []) /\
  (forall f args, In (f, args) cs -> func_ok f /\ kept_args ext0 f args /\
     (forall v, wireof ext0 (TyStruct (args_name f) (fn_args f)) (args_val f args) v -> (need v <= 80)%nat) /\
     (forall m, In m (fn_args f) -> no_binary (m_ty m)) /\
     (forall m, In m (result_members f) -> flat (m_ty m))) /\
  exists c' w' e, chat compactR compactW nop cfreshR cfreshW ext0 64 5 80 cs new_client_factory w =
    Ok ([([(0, AInt64 12); (1, ANil)], None); ([(0, AInt64 0); (1, ANil)], Some (RErr e))], c', w') /\ c_seq c' = 2 /\
    w_out (fst (o_own w')) = sc_message (lit "add") 1 1 ++ sc_val ex_argsw ++ sc_message (lit "add") 1 2 ++ sc_val ex_argsw.
Proof.
  cbv zeta. split; [split; [exact ext0_orders|]; split; [vm_compute; lia|]; split; [apply tameb_ok; vm_compute; reflexivity|exists cinit; split; reflexivity]|]. split.
  - intros f args [E|[E|[]]]; injection E; intros; subst; (split; [apply ex_ok; cbn; auto|]; split; [exact ex_args_kept|]; split;
      [intros v Wv; rewrite (wireof_fun _ _ _ _ _ Wv ex_args_wire); cbn; lia|]);
      (split; intros m Hm; cbn in Hm; repeat (destruct Hm as [<-|Hm]; [cbn; repeat constructor|]); try destruct Hm);
      try (intros m Hm; cbn in Hm; repeat (destruct Hm as [<-|Hm]; [cbn; repeat constructor|]); destruct Hm).
  - eexists _, _, _. split; [vm_compute; reflexivity|]. split; vm_compute; reflexivity.
Qed.
