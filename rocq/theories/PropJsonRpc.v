(** C99: generated clients and processors over TJSONProtocol. *)
From Coq Require Import ZArith List Bool Lia String Permutation.
From Coq Require Import ZifyBool ZifyNat.
From Verif Require Import Base Arith Errors Transport TransportProofs Proto Values WfDec Access Strconv JsonText JsonTextProofs
  Skip SkipProofs F64 TField GoVal Names Compare TList TSet TMap Gen GenSpec GenProofs GenInst GenRound
  BufIO BufRead BufReadProofs Json JsonSpec JsonWrite JsonRead JsonReadVal JsonForm PropJson PropGen PropJsonGen
  AppExc AppExcProofs PropRpc Rpc RpcProofs PropService.
Import ListNotations.
Local Open Scope list_scope.
Local Notation length := List.length.
Local Notation concat := List.concat.
Open Scope Z_scope.

(** ** TJSONProtocol as a channel *)

(** Outside and inside of a message. *)
Definition jow (s : jw) (o : bytes) : Prop := s = (MkWt o [], [TopLevel; TopLevel]).
Definition jow' (s : jw) (o : bytes) : Prop := s = (MkWt o [], [InList; TopLevel; TopLevel]).
Definition jenc (J : jenv) (v : tval) : bytes := [44] ++ vtext J v.
(** A message as it is sent. *)
Definition jmsg (J : jenv) (name : bytes) (t seq : Z) (v : tval) : bytes :=
  message_text J name t seq ++ jenc J v ++ [93].

Section Writer.
Variable J : jenv.
Lemma jow_val : forall v s o, wf v -> jow' s o -> exists s', wr false (jsonW J) v s s' /\ jow' s' (o ++ jenc J v).
Proof.
  intros v s o W ->. eexists. split; [apply (json_wr J v InList [TopLevel; TopLevel] o W eq_refl)|reflexivity].
Qed.
Lemma jow_exc : forall e s o, exc_ok e -> jow' s o ->
  exists s', app_write (jsonW J) e s = Ok (None, s') /\ jow' s' (o ++ jenc J (VStruct (exc_fields e))).
Proof.
  intros e s o Ke Ho. destruct (jow_val _ s o (exc_wf e Ke) Ho) as (s' & Hw & Ho').
  exists s'. split; [eapply app_write_wr, Hw|exact Ho'].
Qed.
Lemma jow_msg : forall name t seq s o, t = CALL \/ t = REPLY \/ t = EXCEPTION -> True -> jow s o ->
  exists s', wMessageBegin (jsonW J) name t seq s = Ok (None, s') /\ jow' s' (o ++ message_text J name t seq).
Proof.
  intros name t seq s o Ht _ ->. eexists. split; [|reflexivity].
  apply (message_emits J name t seq TopLevel [TopLevel]). unfold in_u, CALL, REPLY, EXCEPTION in *. lia.
Qed.
Lemma jow_end : forall s o, jow' s o -> exists s', wMessageEnd (jsonW J) s = Ok (None, s') /\ jow s' (o ++ [93]).
Proof.
  intros s o ->. eexists. split; [|reflexivity]. apply (emits_list_end InList TopLevel [TopLevel]).
Qed.
Lemma jow_nop : forall s o, jow s o -> exists s', nop s = Ok (None, s') /\ jow s' o.
Proof. intros s o H. exists s. split; [reflexivity|exact H]. Qed.
End Writer.

(** Every request, whatever it holds, that the processor gets through without a panic: as C44. *)
Theorem C99_answers_partial : forall H J x M cf fuel errtext
    (handle : H -> bytes -> list any -> (list (Z * any) * option bytes) * H) fs h si o p,
  (forall f, In f fs -> func_ok f) ->
  (forall f h vals attrs h', In f fs -> handle h (fn_name f) vals = ((attrs, None), h') ->
     if fn_oneway f then (2 <= fuel)%nat
     else (forall m, In m (result_members f) -> no_binary (m_ty m)) /\
          exists rf, reply x f attrs rf /\ (need (VStruct rf) <= fuel)%nat) ->
  (forall f h vals attrs text h', In f fs -> handle h (fn_name f) vals = ((attrs, Some text), h') ->
     exc_ok (MkExc INTERNAL_ERROR (s_internal ++ fn_name f ++ s_colon ++ text))) ->
  (forall e, exc_ok (MkExc PROTOCOL_ERROR (errtext e))) ->
  process (jsonR J) (jsonW J) nop x M cf fuel errtext handle fs h si (json_w (MkWt o [])) = Ok p ->
  match jReadMessageBegin J si with
  | Ok ((name, _, seq), None, _) => exc_ok (MkExc UNKNOWN_METHOD (s_unknown ++ name)) ->
    exists mt body, answered x errtext handle fs h name mt body (p_h p) (p_success p) /\
      p_out p = json_w (MkWt (o ++ jmsg J name mt seq (VStruct body)) [])
  | Ok (_, Some e, _) =>
    p_success p = false /\ p_err p = Some (RErr e) /\ p_h p = h /\ p_out p = json_w (MkWt o [])
  | _ => False
  end.
Proof.
  intros H J x M cf fuel errtext handle fs h si o p Fok Rok Tok Eok Hp.
  set (okm := fun name (_ : Z) => exc_ok (MkExc UNKNOWN_METHOD (s_unknown ++ name))).
  pose proof (process_once (jsonR J) (jsonW J) nop (fun s => s) x M cf fuel errtext handle false true
    jow jow' (fun _ _ => True) (fun _ _ => True) (jenc J) (message_text J) [93] okm exc_ok func_ok (fun _ => True)
    (jow_val J) (jow_exc J) (fun name t seq s o Ht _ => jow_msg J name t seq s o Ht I) (jow_end J) jow_nop
    fs h si (json_w (MkWt o [])) o p Fok) as Q.
  change (rMessageBegin (jsonR J) si) with (jReadMessageBegin J si) in Q.
  assert (R1 : results_ok x fuel handle false true fs).
  { intros f h0 vals attrs h' Hf Eh. specialize (Rok f h0 vals attrs h' Hf Eh).
    destruct (fn_oneway f); [exact Rok|]. split; [|apply Rok]. intros m Hm _. apply Rok, Hm. }
  assert (T1 : texts_ok errtext handle okm exc_ok fs).
  { split; [exact Eok|]. split; [intros name seq K; exact K|exact Tok]. }
  specialize (Q R1 T1 eq_refl Hp).
  destruct (jReadMessageBegin J si) as [[[[[name t] seq] [e|]] s1]| |]; exact Q.
Qed.
Print Assumptions C99_answers_partial.

(** ** The reading side *)

Definition pieces_rt (cs : list bytes) : rt := map (fun c => (c, None)) cs.
Definition jfeed (s : jr) (cs : list bytes) : jr :=
  let b := fst s in (MkB (b_before b) (b_un b) (b_after b) (b_err b) (b_rt b ++ pieces_rt cs), snd s).
Definition jdrain (s : jw) : bytes * jw := (w_out (fst s), (MkWt [] [], snd s)).
Definition jfreshW (s : jw) : jw := json_w (fst s).
Definition jfreshR (s : jr) : jr := json_r (b_rt (fst s)).
Definition jstart {H} (h : H) : @pair jr jw H :=
  MkPair new_client_factory (MkWorld (json_w (MkWt [] [])) (json_w (MkWt [] [])) (json_r []) (json_r [])) h
    (json_r []) (json_w (MkWt [] [])).

Section Reader.
Variable J : jenv.
Variable k : mode.
Variable Kl : k <> Loose.
Definition jir (s : jr) (b : bytes) : Prop := snd s = [TopLevel; TopLevel] /\ exists p, view k (fst s) p b [].
Definition jir' (s : jr) (b : bytes) : Prop := snd s = [InList; TopLevel; TopLevel] /\ exists p, view k (fst s) p b [].
Definition jokm (P : bytes -> Prop) (name : bytes) (seq : Z) : Prop := text_ok J k name /\ in_s 32 seq /\ P name.
Definition jokv (P : tval -> Prop) (v : tval) : Prop := plain_val J k v /\ canon v = v /\ P v.

Lemma jir_msg : forall Pn Pv name t seq v s rest, t = CALL \/ t = REPLY \/ t = EXCEPTION -> jokm Pn name seq ->
  wf v -> jokv Pv v -> jir s (message_text J name t seq ++ jenc J v ++ [93] ++ rest) ->
  exists s', rMessageBegin (jsonR J) s = Ok ((name, t, seq), None, s') /\ jir' s' (jenc J v ++ [93] ++ rest).
Proof.
  intros Pn Pv name t seq v [b c] rest Ht (Kn & Ks & _) W _ (E & p & V). cbn [fst snd] in *. subst c.
  destruct (MessageBegin_view J k TopLevel name t seq b p (jenc J v ++ [93] ++ rest) [] [TopLevel] Kl Kn) as (b' & p' & E & V').
  - unfold in_u, CALL, REPLY, EXCEPTION in *. lia.
  - exact Ks.
  - exact V.
  - unfold jenc. cbn. tauto.
  - eexists. split; [exact E|]. split; [reflexivity|]. exists p'. exact V'.
Qed.
Lemma jir_val : forall Pv v s rest, wf v -> jokv Pv v -> jir' s (jenc J v ++ [93] ++ rest) ->
  exists s', rd false (jsonR J) (ue false v) s s' /\ jir' s' ([93] ++ rest).
Proof.
  intros Pv v [b c] rest W (P & C & _) (E & p & V). cbn [fst snd] in *. subst c.
  destruct (rd_val_good J k Kl v W P InList [TopLevel; TopLevel] eq_refl b p ([93] ++ rest) []) as (b' & p' & D & V').
  - unfold jenc in V. rewrite <- app_assoc in V |- *. exact V.
  - apply follows_delim. cbn. tauto.
  - eexists. split; [cbn [ue]; rewrite <- C; exact D|]. split; [reflexivity|]. exists p'. exact V'.
Qed.
Lemma jir_end : forall s rest, nows rest -> jir' s ([93] ++ rest) ->
  exists s', rMessageEnd (jsonR J) s = Ok (None, s') /\ jir s' rest.
Proof.
  intros [b c] rest N (E & p & V). cbn [fst snd] in *. subst c.
  destruct (end_view (fun c => match c with InList => true | _ => false end) 93 TopLevel InList k b p rest [] [TopLevel]
              eq_refl eq_refl ltac:(lia) V) as (b3 & E3 & V3); [rewrite app_nil_r; exact N|].
  eexists. split; [exact E3|]. split; [reflexivity|]. exists 93. exact V3.
Qed.
Lemma jir_feed : forall s cs, jir s [] -> readable k (concat cs) [] (pieces_rt cs) -> jir (jfeed s cs) (concat cs).
Proof.
  intros [b c] cs (E & p & V) (B & C & R & S). cbn [fst snd] in *. split; [exact E|]. exists 0.
  pose proof (v_con _ _ _ _ _ V) as Vc. cbn in Vc. apply app_eq_nil in Vc. destruct Vc as [Vu Vr].
  apply (content_nil _ (v_ben _ _ _ _ _ V)) in Vr. unfold jfeed. cbn [fst]. rewrite Vu, Vr. cbn [app].
  constructor; cbn [b_un b_rt b_err].
  - apply (v_err _ _ _ _ _ V).
  - exact B.
  - exact C.
  - intros _. exact S.
  - exact R.
Qed.
Lemma jir_nil : (forall n, k = Chunks n -> (n <= 4000)%nat) -> jir (json_r []) [].
Proof.
  intros Hn. split; [reflexivity|]. exists 0. constructor; try reflexivity.
  - constructor.
  - intros _. cbn. repeat constructor.
  - destruct k; cbn; try lia. split; [apply Hn; reflexivity|constructor].
Qed.
End Reader.

(** The messages of [Pn] and [Pv]. *)
Definition jdoc (J : jenv) (Pn : bytes -> Prop) (Pv : tval -> Prop) (b : bytes) : Prop :=
  exists name t seq v, (t = CALL \/ t = REPLY \/ t = EXCEPTION) /\ Pn name /\ in_s 32 seq /\ wf v /\ Pv v /\
    b = jmsg J name t seq v.

(** Any service, handler, number and order of calls, as C47.  The names of the functions are in [Pn]; the
    arguments, results and exceptions, as they are sent, in [Pv]; these are names and values TJSONProtocol
    carries (C59), and the messages made of them are cut into pieces it can read. *)
Theorem C99_states_partial : forall H J k x M cf fuel errtext (Pn : bytes -> Prop) (Pv : tval -> Prop)
    (handle : H -> bytes -> list any -> (list (Z * any) * option bytes) * H) (Inv : H -> Prop) fs cut l h,
  k <> Loose -> (forall n, k = Chunks n -> (n <= 4000)%nat) ->
  (forall name, Pn name -> text_ok J k name) ->
  (forall v, Pv v -> plain_val J k v /\ canon v = v) ->
  (forall n b, jdoc J Pn Pv b -> concat (cut n b) = b /\ readable k b [] (pieces_rt (cut n b))) ->
  orders x -> (4 <= fuel)%nat ->
  (forall f, In f fs -> func_ok f /\ Pn (fn_name f)) -> NoDup (map fn_name fs) ->
  (forall f m, In f fs -> In m (fn_args f ++ result_members f) -> no_binary (m_ty m)) ->
  Inv h ->
  (forall f args h vals, In (f, args) l -> Inv h -> Forall2 same args vals -> Inv (snd (handle h (fn_name f) vals))) ->
  (forall f args h vals attrs h', In (f, args) l -> Inv h -> Forall2 same args vals -> handle h (fn_name f) vals = ((attrs, None), h') ->
     (forall m, chosen f attrs m -> kept x (m_ty m) (attribute attrs (m_id m)) \/
                                    absent (m_ty m) (attribute attrs (m_id m))) /\
     forall rf, reply x f attrs rf -> Pv (VStruct rf) /\ (need (VStruct rf) <= fuel)%nat) ->
  (forall f args h vals attrs text h', In (f, args) l -> Inv h -> Forall2 same args vals -> handle h (fn_name f) vals = ((attrs, Some text), h') ->
     let e := MkExc INTERNAL_ERROR (s_internal ++ fn_name f ++ s_colon ++ text) in
     exc_ok e /\ Pv (VStruct (exc_fields e))) ->
  (forall f args, In (f, args) l -> In f fs /\ fn_oneway f = false /\ kept_args x f args /\
     forall wv, wireof x (TyStruct (args_name f) (fn_args f)) (args_val f args) wv ->
       Pv wv /\ (need wv <= fuel)%nat) ->
  exists rs st, calls (jsonR J) (jsonW J) nop jfreshR jfreshW x M cf fuel errtext handle
      fs jdrain jfeed cut 0 l (jstart h) = Ok (rs, st) /\
    serves handle l h rs (pr_h st) /\ Inv (pr_h st) /\
    o_own (pr_w st) = json_w (MkWt [] []) /\ pr_out st = json_w (MkWt [] []) /\
    holds (fst (i_own (pr_w st))) [] /\ holds (fst (pr_in st)) [].
Proof.
  intros H J k x M cf fuel errtext Pn Pv handle Inv fs cut l h Kl Kn HPn HPv Hcut Ho F4 Fok Nd Nb Hi His Hok Tok Lok.
  assert (Hv : forall v, Pv v -> jokv J k Pv v).
  { intros v P. destruct (HPv v P). split; [assumption|]. split; assumption. }
  destruct (calls_served (jsonR J) (jsonW J) nop jfreshR jfreshW x M cf fuel errtext handle
    false false false jow jow' (jir k) (jir' k) (jenc J) (message_text J) [93] (jokm J k Pn)
    (fun e => exc_ok e /\ Pv (VStruct (exc_fields e))) (jokv J k Pv) (fun f => func_ok f /\ Pn (fn_name f)) nows
    (jow_val J) (fun e s o Ke => jow_exc J e s o (proj1 Ke))
    (fun name t seq s o Ht _ => jow_msg J name t seq s o Ht I) (jow_end J) jow_nop
    (jir_msg J k Kl Pn Pv) (jir_val J k Kl Pv) (jir_end J k)) with
    (drain := jdrain) (feed := jfeed) (cut := cut) (safe := fun cs => readable k (concat cs) [] (pieces_rt cs))
    (Inv := Inv) (fs := fs) (l := l) (n := 0%nat) (st := jstart h)
    as (rs & st & E & Sv & Iv & A1 & A2 & A3 & A4); try assumption; try reflexivity.
  - intros s o ->. reflexivity.
  - intros f [Ff _]. exact Ff.
  - intros f seq [Ff Pf] Hs. split; [apply HPn, Pf|]. split; assumption.
  - intros e [Ke Pe]. split; [apply exc_wf, Ke|apply Hv, Pe].
  - intros s o ->. split; [reflexivity|]. reflexivity.
  - intros s cs. apply jir_feed.
  - intros n b (name & t & seq & v & Ht & (_ & Hs & Pm) & W & (_ & _ & P) & ->).
    destruct (Hcut n (jmsg J name t seq v)) as [C1 C2]; [exists name, t, seq, v; auto 7|].
    unfold jmsg in C1, C2 |- *. rewrite C1. split; [reflexivity|exact C2].
  - intros f args h0 vals Hl Hi0 Fv. split; [|exact (His f args h0 vals Hl Hi0 Fv)].
    pose proof (proj1 (Lok f args Hl)) as Hf. unfold does_ok. destruct (handle h0 (fn_name f) vals) as [[attrs [text|]] h1] eqn:E.
    + eapply Tok; eassumption.
    + destruct (Hok f args h0 vals attrs h1 Hl Hi0 Fv E) as [K N].
      split; [intros m Hm _; eapply Nb; [exact Hf|apply in_app_iff; right; exact Hm]|].
      split; [exact K|]. intros rf Rp. destruct (N rf Rp). split; [apply Hv; assumption|assumption].
  - intros f args Hl. destruct (Lok f args Hl) as (Hf & One & [La Ka] & N).
    split; [exact Hf|]. split; [exact One|]. split; [exact La|].
    split; [intros _; apply nb_struct; intros m Hm; eapply Nb; [exact Hf|apply in_app_iff; left; exact Hm]|].
    split; [exact Ka|]. intros wv Wv. destruct (N wv Wv). split; [apply Hv; assumption|assumption].
  - apply jir_nil; assumption.
  - apply jir_nil; assumption.
  - destruct A3 as (_ & p3 & V3), A4 as (_ & p4 & V4).
    exists rs, st. split; [exact E|]. split; [exact Sv|]. split; [exact Iv|]. split; [exact A1|]. split; [exact A2|].
    split; [exact (view_holds _ _ _ _ _ V3)|exact (view_holds _ _ _ _ _ V4)].
Qed.
Print Assumptions C99_states_partial.

(** The same where the handler keeps to such results whatever it is asked. *)
Theorem C99_calls_partial : forall H J k x M cf fuel errtext (Pn : bytes -> Prop) (Pv : tval -> Prop)
    (handle : H -> bytes -> list any -> (list (Z * any) * option bytes) * H) fs cut l h,
  k <> Loose -> (forall n, k = Chunks n -> (n <= 4000)%nat) ->
  (forall name, Pn name -> text_ok J k name) ->
  (forall v, Pv v -> plain_val J k v /\ canon v = v) ->
  (forall n b, jdoc J Pn Pv b -> concat (cut n b) = b /\ readable k b [] (pieces_rt (cut n b))) ->
  orders x -> (4 <= fuel)%nat ->
  (forall f, In f fs -> func_ok f /\ Pn (fn_name f)) -> NoDup (map fn_name fs) ->
  (forall f m, In f fs -> In m (fn_args f ++ result_members f) -> no_binary (m_ty m)) ->
  (forall f h vals attrs h', In f fs -> handle h (fn_name f) vals = ((attrs, None), h') ->
     (forall m, chosen f attrs m -> kept x (m_ty m) (attribute attrs (m_id m)) \/
                                    absent (m_ty m) (attribute attrs (m_id m))) /\
     forall rf, reply x f attrs rf -> Pv (VStruct rf) /\ (need (VStruct rf) <= fuel)%nat) ->
  (forall f h vals attrs text h', In f fs -> handle h (fn_name f) vals = ((attrs, Some text), h') ->
     let e := MkExc INTERNAL_ERROR (s_internal ++ fn_name f ++ s_colon ++ text) in
     exc_ok e /\ Pv (VStruct (exc_fields e))) ->
  (forall f args, In (f, args) l -> In f fs /\ fn_oneway f = false /\ kept_args x f args /\
     forall wv, wireof x (TyStruct (args_name f) (fn_args f)) (args_val f args) wv ->
       Pv wv /\ (need wv <= fuel)%nat) ->
  exists rs st, calls (jsonR J) (jsonW J) nop jfreshR jfreshW x M cf fuel errtext handle
      fs jdrain jfeed cut 0 l (jstart h) = Ok (rs, st) /\
    serves handle l h rs (pr_h st) /\
    o_own (pr_w st) = json_w (MkWt [] []) /\ pr_out st = json_w (MkWt [] []) /\
    holds (fst (i_own (pr_w st))) [] /\ holds (fst (pr_in st)) [].
Proof.
  intros H J k x M cf fuel errtext Pn Pv handle fs cut l h Kl Kn HPn HPv Hcut Ho F4 Fok Nd Nb Hok Tok Lok.
  destruct (C99_states_partial H J k x M cf fuel errtext Pn Pv handle (fun _ => True) fs cut l h)
    as (rs & st & E & Sv & _ & A); try assumption; auto.
  - intros f args h0 vals attrs h' Hl _ _. apply Hok. exact (proj1 (Lok f args Hl)).
  - intros f args h0 vals attrs text h' Hl _ _. apply Tok. exact (proj1 (Lok f args Hl)).
  - exists rs, st. auto.
Qed.
Print Assumptions C99_calls_partial.

(** Messages in one piece: names of up to 1000 bytes and values of up to 3000 when written. *)
Definition short_name (J : jenv) (name : bytes) : Prop :=
  text_ok J Short name /\ (length (json_quote (j_style J) name) <= 1000)%nat.
Definition short_val (J : jenv) (v : tval) : Prop :=
  plain_val J Short v /\ canon v = v /\ (length (vtext J v) <= 3000)%nat.
Lemma format_len : forall z, (length (FormatInt z) <= 21)%nat.
Proof.
  assert (G : forall f n acc, (length (dec_digits f n acc) <= f + length acc)%nat).
  { induction f as [|f IH]; intros n acc; cbn [dec_digits]; [lia|].
    destruct (_ =? 0); [cbn; lia|]. specialize (IH (n / 10) ((48 + n mod 10) :: acc)). cbn [length] in IH. lia. }
  intros z. unfold FormatInt, format_uint. destruct (z <? 0); cbn [length].
  - specialize (G 20%nat (- z) []). cbn [length] in G. lia.
  - specialize (G 20%nat z []). cbn [length] in G. lia.
Qed.
Theorem C99_small_states_partial : forall H J x M cf fuel errtext
    (handle : H -> bytes -> list any -> (list (Z * any) * option bytes) * H) (Inv : H -> Prop) fs l h,
  orders x -> (4 <= fuel)%nat ->
  (forall f, In f fs -> func_ok f /\ short_name J (fn_name f)) -> NoDup (map fn_name fs) ->
  (forall f m, In f fs -> In m (fn_args f ++ result_members f) -> no_binary (m_ty m)) ->
  Inv h ->
  (forall f args h vals, In (f, args) l -> Inv h -> Forall2 same args vals -> Inv (snd (handle h (fn_name f) vals))) ->
  (forall f args h vals attrs h', In (f, args) l -> Inv h -> Forall2 same args vals -> handle h (fn_name f) vals = ((attrs, None), h') ->
     (forall m, chosen f attrs m -> kept x (m_ty m) (attribute attrs (m_id m)) \/
                                    absent (m_ty m) (attribute attrs (m_id m))) /\
     forall rf, reply x f attrs rf -> short_val J (VStruct rf) /\ (need (VStruct rf) <= fuel)%nat) ->
  (forall f args h vals attrs text h', In (f, args) l -> Inv h -> Forall2 same args vals -> handle h (fn_name f) vals = ((attrs, Some text), h') ->
     let e := MkExc INTERNAL_ERROR (s_internal ++ fn_name f ++ s_colon ++ text) in
     exc_ok e /\ short_val J (VStruct (exc_fields e))) ->
  (forall f args, In (f, args) l -> In f fs /\ fn_oneway f = false /\ kept_args x f args /\
     forall wv, wireof x (TyStruct (args_name f) (fn_args f)) (args_val f args) wv ->
       short_val J wv /\ (need wv <= fuel)%nat) ->
  exists rs st, calls (jsonR J) (jsonW J) nop jfreshR jfreshW x M cf fuel errtext handle
      fs jdrain jfeed (fun _ b => [b]) 0 l (jstart h) = Ok (rs, st) /\
    serves handle l h rs (pr_h st) /\ Inv (pr_h st).
Proof.
  intros H J x M cf fuel errtext handle Inv fs l h Ho F4 Fok Nd Nb Hi His Hok Tok Lok.
  destruct (C99_states_partial H J Short x M cf fuel errtext (short_name J) (short_val J) handle Inv fs (fun _ b => [b]) l h)
    as (rs & st & E & Sv & Iv & _); try assumption; try discriminate.
  - intros name [T _]. exact T.
  - intros v (P & C & _). auto.
  - intros n b (name & t & seq & v & Ht & [_ Ln] & Hs & W & (_ & _ & Lv) & ->). cbn [concat]. rewrite app_nil_r.
    split; [reflexivity|]. apply one_chunk.
    + discriminate.
    + unfold jmsg, message_text, jenc. rewrite !app_length. cbn [length].
      pose proof (format_len 1). pose proof (format_len t). pose proof (format_len seq). lia.
    + reflexivity.
  - exists rs, st. auto.
Qed.
Print Assumptions C99_small_states_partial.
Theorem C99_small_calls_partial : forall H J x M cf fuel errtext
    (handle : H -> bytes -> list any -> (list (Z * any) * option bytes) * H) fs l h,
  orders x -> (4 <= fuel)%nat ->
  (forall f, In f fs -> func_ok f /\ short_name J (fn_name f)) -> NoDup (map fn_name fs) ->
  (forall f m, In f fs -> In m (fn_args f ++ result_members f) -> no_binary (m_ty m)) ->
  (forall f h vals attrs h', In f fs -> handle h (fn_name f) vals = ((attrs, None), h') ->
     (forall m, chosen f attrs m -> kept x (m_ty m) (attribute attrs (m_id m)) \/
                                    absent (m_ty m) (attribute attrs (m_id m))) /\
     forall rf, reply x f attrs rf -> short_val J (VStruct rf) /\ (need (VStruct rf) <= fuel)%nat) ->
  (forall f h vals attrs text h', In f fs -> handle h (fn_name f) vals = ((attrs, Some text), h') ->
     let e := MkExc INTERNAL_ERROR (s_internal ++ fn_name f ++ s_colon ++ text) in
     exc_ok e /\ short_val J (VStruct (exc_fields e))) ->
  (forall f args, In (f, args) l -> In f fs /\ fn_oneway f = false /\ kept_args x f args /\
     forall wv, wireof x (TyStruct (args_name f) (fn_args f)) (args_val f args) wv ->
       short_val J wv /\ (need wv <= fuel)%nat) ->
  exists rs st, calls (jsonR J) (jsonW J) nop jfreshR jfreshW x M cf fuel errtext handle
      fs jdrain jfeed (fun _ b => [b]) 0 l (jstart h) = Ok (rs, st) /\
    serves handle l h rs (pr_h st).
Proof.
  intros H J x M cf fuel errtext handle fs l h Ho F4 Fok Nd Nb Hok Tok Lok.
  destruct (C99_small_states_partial H J x M cf fuel errtext handle (fun _ => True) fs l h)
    as (rs & st & E & Sv & _); try assumption; auto.
  - intros f args h0 vals attrs h' Hl _ _. apply Hok. exact (proj1 (Lok f args Hl)).
  - intros f args h0 vals attrs text h' Hl _ _. apply Tok. exact (proj1 (Lok f args Hl)).
  - exists rs, st. auto.
Qed.
Print Assumptions C99_small_calls_partial.

(** An unknown method: the handler is left alone, the answer is an exception that says so, and the input is
    left behind the request. *)
Theorem C99_unknown_partial : forall H J k x M cf fuel errtext
    (handle : H -> bytes -> list any -> (list (Z * any) * option bytes) * H) fs name t seq fl h r o rest,
  k <> Loose -> (forall f, In f fs -> fn_name f <> name) -> t = CALL \/ t = REPLY \/ t = EXCEPTION ->
  text_ok J k name -> in_s 32 seq -> wf (VStruct fl) -> plain_val J k (VStruct fl) -> canon (VStruct fl) = VStruct fl ->
  (need (VStruct fl) <= fuel)%nat -> exc_ok (MkExc UNKNOWN_METHOD (s_unknown ++ name)) ->
  readable k (jmsg J name t seq (VStruct fl) ++ rest) [] r -> nows rest ->
  exists p, process (jsonR J) (jsonW J) nop x M cf fuel errtext handle fs h (json_r r) (json_w (MkWt o [])) = Ok p /\
    snd (p_in p) = [TopLevel; TopLevel] /\ holds (fst (p_in p)) rest /\ p_h p = h /\ p_success p = false /\
    p_err p = Some (RApp (MkExc UNKNOWN_METHOD (s_unknown ++ name))) /\
    p_out p = json_w (MkWt (o ++ jmsg J name EXCEPTION seq
      (VStruct (exc_fields (MkExc UNKNOWN_METHOD (s_unknown ++ name))))) []).
Proof.
  intros H J k x M cf fuel errtext handle fs name t seq fl h r o rest Kl Hn Ht Kn Hs W P C N Ke R Nw.
  destruct (process_unknown (jsonR J) (jsonW J) nop x M cf fuel errtext handle
    false false jow jow' (jir k) (jir' k) (jenc J) (message_text J) [93] (jokm J k (fun _ => True))
    exc_ok (jokv J k (fun _ => True)) nows) with
    (enci := jenc J) (emsgi := message_text J) (eendi := [93]) (fs := fs) (h := h) (si := json_r r) (so := json_w (MkWt o [])) (o := o) (name := name) (t := t) (seq := seq)
    (fl := fl) (rest := rest) as (p & E & (Pc & q & Pv) & Ph & Ps & Pe & Po); try assumption; try reflexivity.
  - apply jow_exc.
  - intros nm ty sq s o' Hty _. apply jow_msg; auto.
  - apply jow_end.
  - apply jow_nop.
  - apply jir_msg. exact Kl.
  - apply jir_val. exact Kl.
  - apply jir_end.
  - split; [exact Kn|]. split; [exact Hs|exact I].
  - split; [exact P|]. split; [exact C|exact I].
  - split; [reflexivity|]. exists 0. apply readable_view in R.
    unfold jmsg in R. rewrite <- !app_assoc in R. exact R.
  - exists p. split; [exact E|]. split; [exact Pc|]. split; [|auto].
    apply view_holds in Pv. rewrite app_nil_r in Pv. exact Pv.
Qed.
Print Assumptions C99_unknown_partial.

(** As ex_handle of PropService.v, but add gives 42. *)
Definition ex_handle9 (h : Z) (name : bytes) (vals : list any) : (list (Z * any) * option bytes) * Z :=
  match vals with
  | [AInt32 a; _] =>
    if a =? 0 then (([], Some [122; 101; 114; 111]), h)
    else if a <? 0 then (([(0, AInt64 0); (1, ex_raise [110; 101; 103])], None), h + 1)
    else (([(0, AInt64 42); (1, ANil)], None), h + 1)
  | _ => (([(0, AInt64 42); (1, ANil)], None), h + 1)
  end.
Lemma ex9_attrs : forall h name vals attrs h', ex_handle9 h name vals = ((attrs, None), h') ->
  exists z e, attrs = [(0, AInt64 z); (1, e)] /\ (z = 0 \/ z = 42) /\ (e = ANil \/ e = ex_raise [110; 101; 103]).
Proof.
  intros h name vals attrs h' E. unfold ex_handle9 in E.
  assert (D : (([(0, AInt64 42); (1, ANil)], @None bytes), h + 1) = ((attrs, None), h') ->
    exists z e, attrs = [(0, AInt64 z); (1, e)] /\ (z = 0 \/ z = 42) /\ (e = ANil \/ e = ex_raise [110; 101; 103])).
  { intro Q. injection Q; intros; subst. exists 42, ANil. auto. }
  destruct vals as [|[] [|u [|]]]; try (apply D; exact E).
  destruct (z =? 0); [discriminate|]. destruct (z <? 0); injection E; intros; subst.
  - exists 0, (ex_raise [110; 101; 103]). auto.
  - exists 42, ANil. auto.
Qed.
Lemma short_of : forall s, forallb (fun c => (0 <=? c) && (c <? 128)) s = true -> text_ok J0 Short s.
Proof. intros s H. split; [apply ascii_utf8, H|exact I]. Qed.
Lemma ex9_kept : forall f h vals attrs h', In f ex_fs -> ex_handle9 h (fn_name f) vals = ((attrs, None), h') ->
  (forall m, chosen f attrs m -> kept ext0 (m_ty m) (attribute attrs (m_id m)) \/
                                 absent (m_ty m) (attribute attrs (m_id m))) /\
  forall rf, reply ext0 f attrs rf -> short_val J0 (VStruct rf) /\ (need (VStruct rf) <= 40)%nat.
Proof.
  intros f h vals attrs h' Hf E. apply ex9_attrs in E. destruct E as (z & e & -> & Hz & He).
  assert (Raise : is_bytes [110; 101; 103] /\ Z.of_nat (length [110; 101; 103]) < 2 ^ 31)
    by (split; [concrete|vm_compute; reflexivity]).
  destruct Hf as [<-|[<-|[]]].
  - split.
    + intros m [[[Hm Nm] _]|(_ & t & Et & ->)].
      * destruct Hm as [<-|[]]. left. cbn [m_ty m_id] in *. destruct He as [-> | ->]; [destruct (Nm eq_refl)|].
        change (kept ext0 ex_oops (ex_raise [110; 101; 103])).
        apply k_struct; [reflexivity| |]; intros m [<-|[]].
        -- intros _. cbn. apply k_string; apply Raise.
        -- discriminate.
      * injection Et; intros; subst t. left. cbn. apply k_i64. destruct Hz as [-> | ->]; unfold in_s; cbn; lia.
    + intros rf Rp. inversion Rp as [m w [Hm Nm] _ Ww|t w _ Et Ww|t N Et A|N Et]; subst.
      * destruct Hm as [<-|[]]. cbn [m_ty m_id] in *. destruct He as [-> | ->]; [destruct (Nm eq_refl)|].
        change (attribute _ 1) with (ex_raise [110; 101; 103]) in Ww.
        rewrite (wireof_fun _ _ _ _ _ Ww (ex_raise_wire _ (proj1 Raise) (proj2 Raise))).
        split; [|cbn; lia]. split; [|split; [reflexivity|vm_compute; lia]].
        cbn. repeat split; try discriminate. apply short_of. reflexivity.
      * injection Et; intros; subst t. change (attribute _ 0) with (AInt64 z) in Ww.
        inversion Ww; subst. split; [|cbn; lia]. split; [cbn; repeat split; discriminate|].
        split; [reflexivity|]. destruct Hz as [-> | ->]; vm_compute; lia.
      * injection Et; intros; subst t. destruct A as [(D & _)|(tag & n & cs & D & _)]; discriminate.
      * split; [|cbn; lia]. split; [exact I|]. split; [reflexivity|vm_compute; lia].
  - split.
    + intros m [[[Hm _] _]|(_ & t & Et & _)]; [destruct Hm|discriminate].
    + intros rf Rp. inversion Rp as [m w [Hm Nm] _ Ww|t w _ Et Ww|t N Et A|N Et]; subst; try discriminate; [destruct Hm|].
      split; [|cbn; lia]. split; [exact I|]. split; [reflexivity|vm_compute; lia].
Qed.
Lemma ex9_texts : forall f h vals attrs text h', In f ex_fs ->
  ex_handle9 h (fn_name f) vals = ((attrs, Some text), h') ->
  let e := MkExc INTERNAL_ERROR (s_internal ++ fn_name f ++ s_colon ++ text) in
  exc_ok e /\ short_val J0 (VStruct (exc_fields e)).
Proof.
  intros f h vals attrs text h' Hf E. unfold ex_handle9 in E.
  assert (text = [122; 101; 114; 111]) as ->.
  { destruct vals as [|[] [|u [|]]]; try discriminate. destruct (z =? 0); [|destruct (z <? 0); discriminate].
    injection E; intros; congruence. }
  destruct Hf as [<-|[<-|[]]]; cbv zeta; unfold exc_ok;
    (split; [split; [concrete|split; [concrete|vm_compute; reflexivity]]|]);
    (split; [|split; [reflexivity|vm_compute; lia]]); cbn; repeat split; try discriminate;
    apply short_of; reflexivity.
Qed.
(** All hypotheses of [C99_small_calls_partial], and what its calls give. *)
Example C99_case :
  orders ext0 /\ (forall f, In f ex_fs -> func_ok f /\ short_name J0 (fn_name f)) /\ NoDup (map fn_name ex_fs) /\
  (forall f h vals attrs h', In f ex_fs -> ex_handle9 h (fn_name f) vals = ((attrs, None), h') ->
     (forall m, chosen f attrs m -> kept ext0 (m_ty m) (attribute attrs (m_id m)) \/
                                    absent (m_ty m) (attribute attrs (m_id m))) /\
     forall rf, reply ext0 f attrs rf -> short_val J0 (VStruct rf) /\ (need (VStruct rf) <= 40)%nat) /\
  (forall f h vals attrs text h', In f ex_fs -> ex_handle9 h (fn_name f) vals = ((attrs, Some text), h') ->
     let e := MkExc INTERNAL_ERROR (s_internal ++ fn_name f ++ s_colon ++ text) in
     exc_ok e /\ short_val J0 (VStruct (exc_fields e))) /\
  (forall f m, In f ex_fs -> In m (fn_args f ++ result_members f) -> no_binary (m_ty m)) /\
  kept_args ext0 ex_add ex_args /\
  (forall wv, wireof ext0 (TyStruct (args_name ex_add) (fn_args ex_add)) (args_val ex_add ex_args) wv ->
     short_val J0 wv /\ (need wv <= 40)%nat) /\
  jmsg J0 (lit "add") CALL 1 ex_argsw =
    lit "[1,""add"",1,1,{""1"":{""i32"":5},""2"":{""lst"":[11,2,""x"",""""]}}]" /\
  let l := [(ex_add, arg0 5); (ex_add, arg0 0); (ex_add, arg0 (-1)); (ex_note, [AStr [120]]); (ex_add, ex_args)] in
  let rs := [([(0, AInt64 42); (1, ANil)], None);
             ([(0, AInt64 0); (1, ANil)],
               Some (RApp (MkExc 6 (s_internal ++ [97; 100; 100; 58; 32; 122; 101; 114; 111]))));
             ([(0, AInt64 0); (1, ex_raise [110; 101; 103])], None);
             ([], None);
             ([(0, AInt64 42); (1, ANil)], None)] in
  (match calls (jsonR J0) (jsonW J0) nop jfreshR jfreshW ext0 64 5 40 errtext0 ex_handle9
     ex_fs jdrain jfeed (fun _ b => [b]) 0 l (jstart 10) with
   | Ok (rs', st) => rs' = rs /\ pr_h st = 14
   | _ => False
   end) /\
  (match calls (jsonR J0) (jsonW J0) nop jfreshR jfreshW ext0 64 5 40 errtext0 ex_handle9
     ex_fs jdrain jfeed (fun _ b => [firstn 22 b; skipn 22 b]) 0 l (jstart 10) with
   | Ok (rs', st) => rs' = rs /\ pr_h st = 14
   | _ => False
   end).
Proof.
  split; [exact ext0_orders|].
  split.
  { intros f Hf. split; [apply ex_ok; destruct Hf as [<-|[<-|[]]]; cbn; auto|].
    destruct Hf as [<-|[<-|[]]]; (split; [apply short_of; reflexivity|vm_compute; lia]). }
  split; [nodup|]. split; [exact ex9_kept|]. split; [exact ex9_texts|]. split.
  { intros f m Hf Hm. destruct Hf as [<-|[<-|[]]]; cbn in Hm;
      repeat (destruct Hm as [<-|Hm]; [cbn; repeat constructor; intros ? [<-|[]]; constructor|]); destruct Hm. }
  split; [exact ex_args_kept|]. split.
  { intros wv Ww. rewrite (wireof_fun _ _ _ _ _ Ww ex_args_wire). split; [|cbn; lia].
    split; [|split; [reflexivity|vm_compute; lia]]. cbn. repeat split; try discriminate; apply short_of; reflexivity. }
  split; [vm_compute; reflexivity|].
  cbv zeta. split; vm_compute; split; reflexivity.
Qed.

(** Hypotheses of [C99_answers_partial] and [C99_unknown_partial]. *)
Definition unknown_req : bytes := jmsg J0 (lit "sub") CALL 9 (VStruct [(1, VI32 5)]).
Example C99_requests :
  (forall f h vals attrs h', In f ex_fs -> ex_handle9 h (fn_name f) vals = ((attrs, None), h') ->
     (forall m, In m (result_members f) -> no_binary (m_ty m)) /\
     exists rf, reply ext0 f attrs rf /\ (need (VStruct rf) <= 40)%nat) /\
  (forall e, exc_ok (MkExc PROTOCOL_ERROR (errtext0 e))) /\
  (forall f, In f ex_fs -> fn_oneway f = false) /\
  (forall f, In f ex_fs -> fn_name f <> lit "sub") /\
  text_ok J0 Short (lit "sub") /\ plain_val J0 Short (VStruct [(1, VI32 5)]) /\
  exc_ok (MkExc UNKNOWN_METHOD (s_unknown ++ lit "sub")) /\
  readable Short (unknown_req ++ []) [] [(unknown_req, None)] /\
  (exists p, process (jsonR J0) (jsonW J0) nop ext0 64 5 40 errtext0 ex_handle9 ex_fs 3
     (json_r [(unknown_req, None)]) (json_w (MkWt [] [])) = Ok p /\ p_h p = 3 /\
   p_out p = json_w (MkWt (lit "[1,""sub"",3,9,{""1"":{""str"":""Unknown function sub""},""2"":{""i32"":1}}]") [])) /\
  (exists p, process (jsonR J0) (jsonW J0) nop ext0 64 5 40 errtext0 ex_handle9 ex_fs 3
     (json_r [(firstn 40 (jmsg J0 (lit "add") CALL 9 ex_argsw), None)]) (json_w (MkWt [] [])) = Ok p /\ p_h p = 3 /\
   p_out p = json_w (MkWt (lit "[1,""add"",3,9,{""1"":{""str"":""err""},""2"":{""i32"":7}}]") [])).
Proof.
  split.
  { intros f h vals attrs h' Hf E. apply ex9_attrs in E. destruct E as (z & e & -> & Hz & He). split.
    - intros m Hm. destruct Hf as [<-|[<-|[]]]; cbn in Hm;
        repeat (destruct Hm as [<-|Hm]; [cbn; repeat constructor; intros ? [<-|[]]; constructor|]); destruct Hm.
    - destruct Hf as [<-|[<-|[]]].
      + destruct He as [-> | ->].
        * exists [(0, VI64 z)]. split; [|cbn; lia]. eapply rp_val; [|reflexivity|].
          -- intros n [[<-|[]] D]. apply D. reflexivity.
          -- constructor. unfold in_s. cbn. lia.
        * exists [(1, VStruct [(1, VStr [110; 101; 103])])]. split; [|cbn; lia].
          eapply (rp_exc _ _ _ (Mem 1 [111] false None ex_oops)).
          -- split; [left; reflexivity|discriminate].
          -- intros n [[<-|[]] D]. cbn. lia.
          -- apply wo_struct. eapply wof_take; [reflexivity|unfold in_s; cbn; lia|constructor; [concrete|vm_compute; reflexivity]|constructor].
      + exists []. split; [|cbn; lia]. apply rp_void; [|reflexivity]. intros n [[] _]. }
  split; [intro e; unfold exc_ok; (split; [concrete|split; [concrete|vm_compute; reflexivity]])|].
  split; [intros f [<-|[<-|[]]]; reflexivity|].
  split; [intros f [<-|[<-|[]]]; vm_compute; discriminate|].
  split; [apply short_of; reflexivity|].
  split; [cbn; repeat split; discriminate|].
  split; [unfold exc_ok; (split; [concrete|split; [concrete|vm_compute; reflexivity]])|].
  split; [apply one_chunk; [discriminate|vm_compute; lia|reflexivity]|].
  split; (eexists; split; [vm_compute; reflexivity|]; split; vm_compute; reflexivity).
Qed.

(** A call with an i16 argument gets an exception, and the calls after it on the same connection all fail
    without reaching the handler. *)
Definition ex_put : func :=                     (* void put(1: i16 a) *)
  Fn (lit "put") [Mem 1 [97] false None TyI16] None [] false.
Theorem C99_i16_refuted : exists fs l rs,
  (forall f args, In (f, args) l -> In f fs /\ func_ok f /\ fn_oneway f = false /\ kept_args ext0 f args) /\
  match calls (jsonR J0) (jsonW J0) nop jfreshR jfreshW ext0 64 5 40 errtext0 ex_handle
      fs jdrain jfeed (fun _ b => [b]) 0 l (jstart 10) with
  | Ok (rs', st) => rs' = rs /\ pr_h st = 11
  | _ => False
  end /\
  rs = [([(0, AInt64 15); (1, ANil)], None);
        ([], Some (RApp (MkExc PROTOCOL_ERROR (errtext0 (EProtocol INVALID_DATA)))));
        ([(0, AInt64 0); (1, ANil)], Some (RErr (EProtocol INVALID_DATA)));
        ([(0, AInt64 0); (1, ANil)], Some (RErr (EProtocol INVALID_DATA)))] /\
  ~ exists h, serves ex_handle l 10 rs h.
Proof.
  exists [ex_add; ex_put], [(ex_add, ex_args); (ex_put, [AInt16 7]); (ex_add, ex_args); (ex_add, ex_args)]. eexists.
  split.
  { assert (A : func_ok ex_add) by (apply ex_ok; cbn; auto).
    assert (B : func_ok ex_put /\ kept_args ext0 ex_put [AInt16 7]).
    { split.
      - split; [apply so_struct; [members|]; intros m [<-|[]]; constructor|].
        split; [apply so_struct; [members|]; intros m []|].
        split; [intros m []|]. split; [cbn; discriminate|]. split; [concrete|vm_compute; reflexivity].
      - split; [reflexivity|]. apply k_struct; [reflexivity| |]; intros m [<-|[]]; cbn; try discriminate.
        intros _. constructor. unfold in_s. cbn. lia. }
    intros f args Hl. cbn in Hl.
    destruct Hl as [E|[E|[E|[E|[]]]]]; injection E; intros; subst f args; (split; [cbn; auto|]).
    1,3,4: (split; [exact A|]; split; [reflexivity|exact ex_args_kept]).
    split; [apply B|]. split; [reflexivity|apply B]. }
  split; [vm_compute; split; reflexivity|]. split; [reflexivity|].
  intros (h & Sv). inversion Sv as [|? ? ? ? ? ? ? ? _ S2]; subst.
  inversion S2 as [|? ? ? ? ? ? ? ? S3 _]; subst. inversion S3.
Qed.
Print Assumptions C99_i16_refuted.

(** The same bytes in two pieces: where a piece ends decides whether the calls are served. *)
Theorem C99_cut_refuted : exists cut fs l rs,
  (forall n b, concat (cut n b) = b) /\
  (forall f args, In (f, args) l -> In f fs /\ func_ok f /\ fn_oneway f = false /\ kept_args ext0 f args) /\
  (match calls (jsonR J0) (jsonW J0) nop jfreshR jfreshW ext0 64 5 40 errtext0 ex_handle9
      fs jdrain jfeed (fun _ b => [b]) 0 l (jstart 10) with
   | Ok (rs', st) => rs' = [([(0, AInt64 42); (1, ANil)], None); ([(0, AInt64 42); (1, ANil)], None)] /\ pr_h st = 12
   | _ => False
   end) /\
  (match calls (jsonR J0) (jsonW J0) nop jfreshR jfreshW ext0 64 5 40 errtext0 ex_handle9
      fs jdrain jfeed cut 0 l (jstart 10) with
   | Ok (rs', st) => rs' = rs /\ pr_h st = 10
   | _ => False
   end) /\
  map snd rs = [Some (RErr (EProtocol INVALID_DATA)); Some (RErr (EProtocol INVALID_DATA))] /\
  ~ exists h, serves ex_handle9 l 10 rs h.
Proof.
  exists (fun _ b => [firstn 24 b; skipn 24 b]), [ex_add], [(ex_add, ex_args); (ex_add, ex_args)]. eexists.
  split; [intros n b; cbn [concat]; rewrite app_nil_r; apply firstn_skipn|].
  split.
  { intros f args Hl. assert (f = ex_add /\ args = ex_args) as [-> ->].
    { destruct Hl as [E|[E|[]]]; injection E; intros; subst; auto. }
    split; [cbn; auto|]. split; [apply ex_ok; cbn; auto|]. split; [reflexivity|exact ex_args_kept]. }
  split; [vm_compute; split; reflexivity|]. split; [vm_compute; split; reflexivity|].
  split; [reflexivity|].
  intros (h & Sv). inversion Sv as [|? ? ? ? ? ? ? ? Sb _]; subst. inversion Sb.
Qed.
Print Assumptions C99_cut_refuted.
