(** C113: generated clients and processors over TSimpleJSONProtocol. *)
From Coq Require Import ZArith List Bool Lia String Permutation.
From Coq Require Import ZifyBool ZifyNat.
From Verif Require Import Base Arith Errors Transport TransportProofs Proto Values WfDec Access Strconv JsonText JsonTextProofs
  Skip SkipProofs F64 TField GoVal Names Compare TList TSet TMap TFieldProofs Gen GenSpec GenProofs GenInst GenRound
  BufIO BufRead BufReadProofs Json JsonSpec JsonWrite JsonRead JsonReadVal JsonForm PropJson PropGen PropJsonGen SimpleGen PropSimpleGen
  AppExc AppExcProofs PropRpc Rpc RpcProofs PropService PropJsonRpc.
Import ListNotations.
Local Open Scope list_scope.
Local Notation length := List.length.
Local Notation concat := List.concat.
Open Scope Z_scope.

(** ** Messages *)

(** [["name",type,seq,value]], the value of type [ty]. *)
Definition smsg_head (J : jenv) (name : bytes) (t seq : Z) : bytes :=
  [91] ++ json_quote (j_style J) name ++ [44] ++ FormatInt t ++ [44] ++ FormatInt seq.
Definition smsg (J : jenv) (ty : ty) (name : bytes) (t seq : Z) (w : tval) : bytes :=
  smsg_head J name t seq ++ [44] ++ stext J ty w ++ [93].
(** What a TApplicationException is written as. *)
Definition exc_ty : ty := TyStruct s_tapp [Mem 1 s_message false None TyString; Mem 2 s_type false None TyI32].
Definition args_ty (f : func) : ty := TyStruct (args_name f) (fn_args f).
Definition result_ty (f : func) : ty := TyStruct (result_name f) (result_members f).

Definition mtype (t : Z) : Prop := t = CALL \/ t = REPLY \/ t = EXCEPTION.
Lemma mtype_u8 : forall t, mtype t -> in_u 8 t.
Proof. intros t Ht. unfold mtype, in_u, CALL, REPLY, EXCEPTION in *. lia. Qed.

Definition sfreshW (s : jw) : jw := simple_w (fst s).
Definition sfreshR (s : jr) : jr := simple_r (b_rt (fst s)).
Definition sstart {H} (h : H) : @pair jr jw H :=
  MkPair new_client_factory (MkWorld (simple_w (MkWt [] [])) (simple_w (MkWt [] [])) (simple_r []) (simple_r [])) h
    (simple_r []) (simple_w (MkWt [] [])).

(** ** Writing *)
Section Writer.
Variable J : jenv.
Variable x : ext.
Lemma smsg_begin : forall name t seq o, mtype t ->
  wMessageBegin (simpleW J) name t seq (simple_w (MkWt o [])) =
    Ok (None, (MkWt (o ++ smsg_head J name t seq) [], [InList; TopLevel])).
Proof.
  intros name t seq o Ht. apply mtype_u8 in Ht. revert o.
  change (emits (wMessageBegin (simpleW J) name t seq) [TopLevel] (smsg_head J name t seq) [InList; TopLevel]).
  eapply emits_eq.
  - eapply emits_seq; [apply emits_list_begin|]. eapply emits_seq; [apply emits_str|]. eapply emits_seq; apply emits_i64.
  - unfold smsg_head, wrapu. cbn [sep after_value key_quote is_key app].
    rewrite Z.mod_small by (unfold in_u in Ht; exact Ht).
    repeat (progress (cbn [app]; rewrite <- ?app_assoc)). reflexivity.
Qed.
Lemma smsg_end : forall o, wMessageEnd (simpleW J) (MkWt o [], [InList; TopLevel]) = Ok (None, simple_w (MkWt (o ++ [93]) [])).
Proof. intro o. apply (emits_list_end InList TopLevel []). Qed.

Lemma s_exc : forall e c l, is_key c = false ->
  emits (app_write (simpleW J) e) (c :: l) (sep c ++ stext J exc_ty (VStruct (exc_fields e))) (after_value c :: l).
Proof.
  intros [t m] c l K o. unfold app_write. cbn [x_msg x_type].
  change (wStructBegin (simpleW J) s_tapp) with OutputObjectBegin. rewrite (emits_obj_begin c l o). cbn [obind].
  match goal with |- _ = Ok (None, (MkWt (o ++ ?a) [], _)) => set (A := a) end.
  assert (E : forall d, is_key d = true -> emits (wFieldBegin (simpleW J) s_type I32 2 >>> wI32 (simpleW J) t >>> wFieldEnd (simpleW J) >>>
                wFieldStop (simpleW J) >>> wStructEnd (simpleW J)) (d :: c :: l)
                (sep d ++ json_quote (j_style J) s_type ++ [58] ++ FormatInt t ++ [125]) (after_value c :: l)).
  { intros d Kd. eapply emits_eq.
    - eapply emits_seq; [apply emits_str|]. replace (after_value d) with NextValue by (destruct d; try discriminate Kd; reflexivity).
      eapply emits_seq; [apply emits_i64|]. eapply emits_seq; [apply emits_nop|]. eapply emits_seq; [apply emits_nop|].
      apply emits_obj_end.
    - cbn [sep key_quote is_key app]. rewrite <- !app_assoc. reflexivity. }
  destruct m as [|b m].
  - assert (G : emits (nop >>> wFieldBegin (simpleW J) s_type I32 2 >>> wI32 (simpleW J) t >>> wFieldEnd (simpleW J) >>>
                wFieldStop (simpleW J) >>> wStructEnd (simpleW J)) (ObjFirst :: c :: l)
                ([] ++ sep ObjFirst ++ json_quote (j_style J) s_type ++ [58] ++ FormatInt t ++ [125]) (after_value c :: l)).
    { eapply emits_seq; [apply emits_nop|apply E; reflexivity]. }
    rewrite G. f_equal. f_equal. f_equal. f_equal. unfold A. cbn. rewrite <- !app_assoc. cbn. rewrite <- ?app_assoc. reflexivity.
  - assert (G : emits ((wFieldBegin (simpleW J) s_message STRING 1 >>> wString (simpleW J) (b :: m) >>> wFieldEnd (simpleW J)) >>>
                wFieldBegin (simpleW J) s_type I32 2 >>> wI32 (simpleW J) t >>> wFieldEnd (simpleW J) >>>
                wFieldStop (simpleW J) >>> wStructEnd (simpleW J)) (ObjFirst :: c :: l)
                ((sep ObjFirst ++ json_quote (j_style J) s_message ++ sep NextValue ++ json_quote (j_style J) (b :: m) ++ []) ++
                 sep NextKey ++ json_quote (j_style J) s_type ++ [58] ++ FormatInt t ++ [125]) (after_value c :: l)).
    { eapply emits_seq; [|apply E; reflexivity]. eapply emits_eq.
      - eapply emits_seq; [apply emits_str|]. eapply emits_seq; [apply emits_str|apply emits_nop].
      - rewrite <- !app_assoc. reflexivity. }
    rewrite G. f_equal. f_equal. f_equal. f_equal. unfold A, exc_ty. rewrite stext_struct. cbn [exc_fields x_msg x_type app].
    unfold exc_fields. cbn [x_msg x_type app]. rewrite !sfields_cons. cbn [sfields sep app]. unfold sfield, mem_name, mem_ty.
    cbn [mem_of find m_id m_name m_ty fst snd Z.eqb Pos.eqb stext app].
    repeat (progress (cbn [app]; rewrite ?app_nil_r, <- ?app_assoc)). reflexivity.
Qed.
Lemma s_write_exception : forall name seq e o,
  write_exception (simpleW J) nop name seq e (simple_w (MkWt o [])) =
    Ok (simple_w (MkWt (o ++ smsg J exc_ty name EXCEPTION seq (VStruct (exc_fields e))) [])).
Proof.
  intros name seq e o. unfold write_exception. rewrite smsg_begin by (unfold mtype; auto). cbn [obind].
  rewrite (s_exc e InList [TopLevel] eq_refl). cbn [obind after_value]. rewrite smsg_end. cbn [obind nop].
  unfold smsg. cbn [sep]. rewrite <- !app_assoc. reflexivity.
Qed.

Lemma s_result : forall f attrs rf fuel o, func_ok f -> reply x f attrs rf -> (need (VStruct rf) <= fuel)%nat ->
  gwrite_result (simpleW J) x fuel (result_name f) (result_members f) attrs (MkWt o [], [InList; TopLevel]) =
    Ok (None, (MkWt (o ++ [44] ++ stext J (result_ty f) (VStruct rf)) [], [InList; TopLevel])).
Proof.
  intros f attrs rf fuel o Fok Hr Nf. revert o.
  change (emits (gwrite_result (simpleW J) x fuel (result_name f) (result_members f) attrs) [InList; TopLevel]
    ([44] ++ stext J (result_ty f) (VStruct rf)) [InList; TopLevel]).
  pose proof (reply_pick x f attrs rf Fok Hr) as P. unfold gwrite_result.
  pose proof Fok as (_ & So & _). inversion So as [| | | | | | | | | | | |? ? Mok Sok]; subst.
  unfold result_ty. rewrite stext_struct. cbn [need] in Nf. fold (fneed rf) in Nf.
  assert (G : exists c', emits (match result_pick attrs None (rev (sorted_members (result_members f))) with
     | Some m => gwrite_field (simpleW J) x fuel m (attribute attrs (m_id m)) | None => nop end)
     (ObjFirst :: [InList; TopLevel]) (sfields J (result_members f) ObjFirst rf) (c' :: [InList; TopLevel])).
  { destruct (result_pick _ _ _) as [m|].
    - destruct P as [Im P].
      destruct (proj2 (proj2 (proj2 (simple_write_all J x))) attrs [m] rf P (result_members f)) with (f := fuel) (c := ObjFirst)
        (l := [InList; TopLevel]) as (c' & E).
      + intros n [<-|[]]. apply mem_of_in; [apply Mok|exact Im].
      + intros n [<-|[]]. apply Sok, Im.
      + lia.
      + reflexivity.
      + exists c'. intro o. specialize (E o). cbn [map wseqs] in E. unfold wseq, nop in E.
        match goal with |- ?a = _ => destruct a as [[[e|] q]| |] end; cbn in E; congruence.
    - subst rf. exists ObjFirst. apply emits_nop. }
  destruct G as [c' G]. eapply emits_eq.
  - eapply emits_seq; [apply emits_wrap, emits_obj_begin|]. eapply emits_seq; [exact G|].
    eapply emits_seq; [apply emits_wrap, emits_nop|]. apply emits_wrap, emits_obj_end.
  - cbn [sep app]. reflexivity.
Qed.
End Writer.

(** Every request, whatever it holds, that the processor gets through without a panic is answered as C44 says; the texts
    of exceptions are any bytes. *)
Theorem C113_answers : forall H J x M cf fuel errtext
    (handle : H -> bytes -> list any -> (list (Z * any) * option bytes) * H) fs h si o p,
  (forall f, In f fs -> func_ok f) ->
  (forall f h vals attrs h', In f fs -> handle h (fn_name f) vals = ((attrs, None), h') ->
     if fn_oneway f then (2 <= fuel)%nat
     else exists rf, reply x f attrs rf /\ (need (VStruct rf) <= fuel)%nat) ->
  process (simpleR J) (simpleW J) nop x M cf fuel errtext handle fs h si (simple_w (MkWt o [])) = Ok p ->
  match sReadMessageBegin J si with
  | Ok ((name, _, seq), None, _) =>
    exists mt body, answered x errtext handle fs h name mt body (p_h p) (p_success p) /\
      exists ty, p_out p = simple_w (MkWt (o ++ smsg J ty name mt seq (VStruct body)) []) /\
        (mt = EXCEPTION /\ ty = exc_ty \/ mt = REPLY /\ exists f, In f fs /\ fn_name f = name /\ ty = result_ty f)
  | Ok (_, Some e, _) =>
    p_success p = false /\ p_err p = Some (RErr e) /\ p_h p = h /\ p_out p = simple_w (MkWt o [])
  | _ => False
  end.
Proof.
  intros H J x M cf fuel errtext handle fs h si o p Fok Rok Hp. unfold process in Hp.
  change (rMessageBegin (simpleR J) si) with (sReadMessageBegin J si) in Hp.
  destruct (sReadMessageBegin J si) as [[[[[name t] seq] [e|]] s1]| |]; cbn [obind] in Hp; try discriminate.
  { injection Hp; intros; subst p. repeat split. }
  destruct (lookup_fn fs name) as [f|] eqn:L.
  - apply lookup_in in L. destruct L as [Hf <-]. unfold process_fn in Hp.
    destruct (gread _ _ _ _ _ _ s1) as [[[args|e] s2]| |]; cbn [obind] in Hp; try discriminate.
    + destruct (rMessageEnd _ s2) as [[e2 s3]| |]; cbn [obind] in Hp; try discriminate.
      set (vals := map _ (fn_args f)) in Hp.
      assert (Lv : length vals = length (fn_args f)) by (unfold vals; apply map_length).
      destruct (handle h (fn_name f) vals) as [[attrs [text|]] h'] eqn:Eh.
      * rewrite s_write_exception in Hp. cbn [obind] in Hp. injection Hp; intros; subst p. cbn [p_h p_success p_out].
        eexists _, _. split; [eapply an_failed; eauto|]. eexists. split; [reflexivity|auto].
      * pose proof (Rok f h vals attrs h' Hf Eh) as Rk.
        rewrite smsg_begin in Hp by (unfold mtype; auto). cbn [obind] in Hp.
        assert (Hr : exists rf, reply x f (if fn_oneway f then init_attrs (result_members f) else attrs) rf /\
                     (need (VStruct rf) <= fuel)%nat /\ (if fn_oneway f then rf = [] else reply x f attrs rf)).
        { destruct (fn_oneway f) eqn:One.
          - destruct (proj1 (proj2 (proj2 (proj2 (Fok f Hf)))) One) as [Er Ex]. exists []. split; [|split; [cbn; lia|reflexivity]].
            apply rp_void; [|exact Er]. intros n [Hn _]. rewrite Ex in Hn. destruct Hn.
          - destruct Rk as (rf & Hr & Nf). exists rf. auto. }
        destruct Hr as (rf & Rp & Nf & Hrf). rewrite (s_result J x f _ rf fuel _ (Fok f Hf) Rp Nf) in Hp. cbn [obind] in Hp.
        rewrite smsg_end in Hp. cbn [obind nop first_error] in Hp.
        injection Hp; intros; subst p. cbn [p_h p_success p_out].
        exists REPLY, rf. split; [eapply an_reply; eauto|]. exists (result_ty f).
        split; [unfold smsg; rewrite <- !app_assoc; reflexivity|]. right. eauto.
    + destruct (rMessageEnd _ s2) as [[e2 s3]| |]; cbn [obind] in Hp; try discriminate.
      rewrite s_write_exception in Hp. cbn [obind] in Hp. injection Hp; intros; subst p. cbn [p_h p_success p_out].
      eexists _, _. split; [eapply an_malformed; eauto|]. eexists. split; [reflexivity|auto].
  - destruct (skip_default _ M fuel STRUCT s1) as [[e2 s2]| |]; cbn [obind] in Hp; try discriminate.
    destruct (rMessageEnd _ s2) as [[e3 s3]| |]; cbn [obind] in Hp; try discriminate.
    rewrite s_write_exception in Hp. cbn [obind] in Hp. injection Hp; intros; subst p. cbn [p_h p_success p_out].
    eexists _, _. split; [apply an_unknown, lookup_none, L|]. eexists. split; [reflexivity|auto].
Qed.
Print Assumptions C113_answers.

(** ** Reading *)
Section Reader.
Variable J : jenv.
Definition sir (s : jr) (b : bytes) : Prop := snd s = [TopLevel] /\ exists p, view Strict (fst s) p b [].
Definition sir' (s : jr) (b : bytes) : Prop := snd s = [InList; TopLevel] /\ exists p, view Strict (fst s) p b [].

Lemma sir_msg : forall name t seq s tail, mtype t -> text_ok J Strict name -> in_s 32 seq ->
  sir s (smsg_head J name t seq ++ [44] ++ tail) ->
  exists s', rMessageBegin (simpleR J) s = Ok ((name, t, seq), None, s') /\ sir' s' ([44] ++ tail).
Proof.
  intros name t seq [b c] tail Ht [(cs & F & ->) Fi] Hid (E & p & V). cbn [fst snd] in *. subst c.
  apply mtype_u8 in Ht. pose proof (rdy Strict Ks) as Rd.
  assert (H1 : in_s 64 t) by (unfold in_u, in_s in *; lia).
  assert (Hid64 : in_s 64 seq) by (apply (in_s_64 32); [lia|assumption]).
  unfold smsg_head in V. rewrite <- !app_assoc in V.
  change (rMessageBegin (simpleR J)) with (sReadMessageBegin J). unfold sReadMessageBegin.
  destruct (ListBegin_view TopLevel Strict b p (json_quote (j_style J) (utf8 cs) ++ [44] ++ FormatInt t ++ [44] ++ FormatInt seq ++ [44] ++ tail)
              [] [] (Rd _ _) V) as (b1 & -> & V1).
  { rewrite !app_length. cbn [length]. lia. }
  cbn [obind]. unfold read_envelope, ReadI32, ReadByte.
  destruct (ReadString_view (j_style J) ListFirst cs Strict b1 91 ([44] ++ FormatInt t ++ [44] ++ FormatInt seq ++ [44] ++ tail) [] [TopLevel] F Fi (Rd _ _) V1)
    as (b3 & -> & V3); [reflexivity|]. cbn [obind after_value].
  destruct (rconv_view J Strict (wrapu 8) InList t b3 34 ([44] ++ FormatInt seq ++ [44] ++ tail) [] [TopLevel] (Rd _ _) H1) as (b4 & p4 & -> & V4);
    [unfold wrapu; unfold in_u in Ht; now apply Z.mod_small|exact V3|cbn; tauto|]. cbn [obind after_value].
  destruct (rconv_view J Strict (wraps 32) InList seq b4 p4 ([44] ++ tail) [] [TopLevel] (Rd _ _) Hid64) as (b5 & p5 & -> & V5);
    [now apply wraps_id|exact V4|cbn; tauto|]. cbn [obind after_value].
  eexists. split; [reflexivity|]. split; [reflexivity|]. exists p5. exact V5.
Qed.
Lemma sir_val : forall x M cf t w v f s rest, schema_ok t -> wf w -> splain J t w -> canon w = w -> reads x cf t w v ->
  (need w <= f)%nat -> sir' s ([44] ++ stext J t w ++ [93] ++ rest) ->
  exists s', gread (simpleR J) x M cf f t s = Ok (inl v, s') /\ sir' s' ([93] ++ rest).
Proof.
  intros x M cf t w v f [b c] rest So W P C R N (E & p & V). cbn [fst snd] in *. subst c. rewrite <- C in R.
  destruct (proj1 (simple_read_all J x M cf) t _ v R So w eq_refl W P f InList [TopLevel] b p ([93] ++ rest) [] N eq_refl)
    as (b' & p' & D & V').
  - cbn [sep]. rewrite <- !app_assoc. exact V.
  - apply follows_delim. cbn. tauto.
  - eexists. split; [exact D|]. split; [reflexivity|]. exists p'. exact V'.
Qed.
Lemma sir_end : forall s rest, nows rest -> sir' s ([93] ++ rest) ->
  exists s', rMessageEnd (simpleR J) s = Ok (None, s') /\ sir s' rest.
Proof.
  intros [b c] rest N (E & p & V). cbn [fst snd] in *. subst c.
  destruct (end_view (fun c => match c with InList => true | _ => false end) 93 TopLevel InList Strict b p rest [] []
              eq_refl eq_refl ltac:(lia) V) as (b3 & E3 & V3); [rewrite app_nil_r; exact N|].
  eexists. split; [exact E3|]. split; [reflexivity|]. exists 93. exact V3.
Qed.
Lemma sir_feed : forall s cs, sir s [] -> readable Strict (concat cs) [] (pieces_rt cs) -> sir (jfeed s cs) (concat cs).
Proof.
  intros [b c] cs (E & p & V) (B & C & R & S). cbn [fst snd] in *. split; [exact E|]. exists 0.
  pose proof (v_con _ _ _ _ _ V) as Vc. cbn in Vc. apply app_eq_nil in Vc. destruct Vc as [Vu Vr].
  apply (content_nil _ (v_ben _ _ _ _ _ V)) in Vr. unfold jfeed. cbn [fst]. rewrite Vu, Vr. cbn [app].
  constructor; cbn [b_un b_rt b_err].
  - apply (v_err _ _ _ _ _ V).
  - exact B.
  - exact C.
  - intros _. exact S.
  - exact R.
Qed.
Lemma sir_nil : sir (simple_r []) [].
Proof.
  split; [reflexivity|]. exists 0. constructor; try reflexivity.
  - constructor.
  - intros _. cbn. repeat constructor.
  - cbn. lia.
Qed.
End Reader.

(** From RpcProofs.v, without its channel. *)
Lemma s_result_round : forall x cf fuel f attrs, orders x -> func_ok f ->
  (forall m, chosen f attrs m -> kept x (m_ty m) (attribute attrs (m_id m)) \/ absent (m_ty m) (attribute attrs (m_id m))) ->
  (forall rf, reply x f attrs rf -> (need (VStruct rf) <= fuel)%nat) ->
  exists rf, reply x f attrs rf /\
    exists attrs', reads x cf (result_ty f) (VStruct rf) (AStruct 0 (result_name f) (fc_of (result_members f)) attrs') /\
      returned f attrs attrs'.
Proof.
  intros x cf fuel f attrs Ho Fok K N.
  apply (@result_round unit jw unit (simpleW (MkJenv x (MkStyle (fun _ => false) (fun _ => false) false))) nop x 0 cf fuel
    (fun h _ _ => (([], None), h)) true true false (fun _ _ => False) (fun _ _ => False) (fun _ _ => True) (fun _ _ => True)
    (fun _ _ _ => []) [] (fun _ _ => True) func_ok (fun _ => True)); try tauto; try assumption.
  split; [|split; assumption]. intros m _ H. discriminate H.
Qed.
Lemma reply_fun : forall x f attrs rf rf', func_ok f -> reply x f attrs rf -> reply x f attrs rf' -> rf' = rf.
Proof.
  intros x f attrs rf rf' Fok Rp Rp'.
  pose proof (reply_pick x f attrs rf Fok Rp) as P. pose proof (reply_pick x f attrs rf' Fok Rp') as P'.
  destruct (result_pick _ _ _) as [m|]; [|congruence]. destruct P as [_ P], P' as [_ P'].
  eapply (proj2 (proj2 (proj2 (wireof_fun_all x)))); eassumption.
Qed.
Lemma s_combine : forall (ms : list Gen.member) (args : list any) Q, length ms = length args -> NoDup (map m_id ms) ->
  (forall m, In m ms -> same (attribute (combine (map m_id ms) args) (m_id m)) (Q (m_id m))) ->
  Forall2 same args (map (fun m => Q (m_id m)) ms).
Proof.
  induction ms as [|m ms IH]; intros [|a args] Q L Nd Hs; try discriminate; [constructor|].
  cbn [map] in *. inversion Nd as [|? ? N1 N2]; subst. constructor.
  - specialize (Hs m (or_introl eq_refl)). cbn [combine] in Hs. unfold attribute in Hs. cbn [lookup_z fst] in Hs.
    rewrite Z.eqb_refl in Hs. exact Hs.
  - apply IH; [cbn in L; lia|assumption|]. intros n Hn. specialize (Hs n (or_intror Hn)).
    cbn [combine] in Hs. unfold attribute in Hs at 1. cbn [lookup_z fst] in Hs.
    replace (m_id n =? m_id m) with false in Hs; [exact Hs|].
    symmetry. apply Z.eqb_neq. intro E. apply N1. rewrite <- E. apply in_map. exact Hn.
Qed.

(** ** Calls *)
Section Calls.
Context {H : Type}.
Variable J : jenv.
Variable x : ext.
Variable M : Z.
Variable cf fuel : nat.
Variable errtext : err -> bytes.
Variable handle : H -> bytes -> list any -> (list (Z * any) * option bytes) * H.
Hypothesis Ho : orders x.
Variable Pv : ty -> tval -> Prop.
Hypothesis HPv : forall t w, Pv t w -> splain J t w /\ canon w = w.

(** Arguments and results that arrive; as they are sent, they are in [Pv]. *)
Definition sargs_ok (f : func) (args : list any) : Prop :=
  kept_args x f args /\
  forall wv, wireof x (args_ty f) (args_val f args) wv -> Pv (args_ty f) wv /\ (need wv <= fuel)%nat.
Definition sattrs_ok (f : func) (attrs : list (Z * any)) : Prop :=
  (forall m, chosen f attrs m -> kept x (m_ty m) (attribute attrs (m_id m)) \/ absent (m_ty m) (attribute attrs (m_id m))) /\
  forall rf, reply x f attrs rf -> Pv (result_ty f) (VStruct rf) /\ (need (VStruct rf) <= fuel)%nat.

Lemma s_send : forall f args c (w : @world jr jw) o, func_ok f -> sargs_ok f args ->
  c_factory c = true -> c_out c = Some FromFactory -> o_own w = simple_w (MkWt o []) ->
  exists wv w', send (simpleW J) nop sfreshW x fuel f args c w =
      Ok (None, MkClient true (c_in c) (Some FromFactory) (wraps 32 (c_seq c + 1)), w') /\
    wireof x (args_ty f) (args_val f args) wv /\
    o_own w' = simple_w (MkWt (o ++ smsg J (args_ty f) (fn_name f) CALL (wraps 32 (c_seq c + 1)) wv) []) /\
    o_given w' = o_given w /\ i_own w' = i_own w /\ i_given w' = i_given w.
Proof.
  intros f args c w o Fok ((La & K) & Nf) Cf Co Hw.
  destruct (kept_round x cf Ho _ _ K (proj1 Fok)) as (wv & Wv & _). destruct (Nf wv Wv) as (_ & Nw).
  unfold send. rewrite Co, Cf, Hw. cbn [negb]. set (seq := wraps 32 (c_seq c + 1)).
  change (sfreshW (simple_w (MkWt o []))) with (simple_w (MkWt o [])).
  rewrite smsg_begin by (unfold mtype; auto). cbn [obind]. fold (args_val f args). fold (args_ty f).
  rewrite (proj1 (simple_write_all J x) _ _ _ Wv (proj1 Fok) fuel InList [TopLevel] Nw eq_refl). cbn [obind after_value].
  rewrite smsg_end. cbn [obind nop].
  eexists wv, _. split; [reflexivity|]. split; [exact Wv|]. cbn [o_own o_given i_own i_given].
  split; [|auto]. unfold smsg. cbn [sep]. rewrite <- !app_assoc. reflexivity.
Qed.

(** The processor gets a request: it reads the arguments, and what the handler then gives goes into the answer. *)
Lemma s_process : forall fs f args h si o seq wv rest,
  (forall f, In f fs -> func_ok f /\ text_ok J Strict (fn_name f)) -> NoDup (map fn_name fs) ->
  In f fs -> sargs_ok f args -> in_s 32 seq -> wireof x (args_ty f) (args_val f args) wv ->
  (forall vals attrs h', Forall2 same args vals -> handle h (fn_name f) vals = ((attrs, None), h') -> sattrs_ok f attrs) ->
  sir si (smsg J (args_ty f) (fn_name f) CALL seq wv ++ rest) -> nows rest ->
  exists vals p, process (simpleR J) (simpleW J) nop x M cf fuel errtext handle fs h si (simple_w (MkWt o [])) = Ok p /\
    sir (p_in p) rest /\ Forall2 same args vals /\ p_h p = snd (handle h (fn_name f) vals) /\
    p_err p = option_map RHandler (snd (fst (handle h (fn_name f) vals))) /\
    (p_success p = true <-> snd (fst (handle h (fn_name f) vals)) = None) /\
    match fst (handle h (fn_name f) vals) with
    | (attrs, None) => exists rf, reply x f attrs rf /\
        p_out p = simple_w (MkWt (o ++ smsg J (result_ty f) (fn_name f) REPLY seq (VStruct rf)) [])
    | (_, Some text) =>
        p_out p = simple_w (MkWt (o ++ smsg J exc_ty (fn_name f) EXCEPTION seq
          (VStruct (exc_fields (MkExc INTERNAL_ERROR (s_internal ++ fn_name f ++ s_colon ++ text))))) [])
    end.
Proof.
  intros fs f args h si o seq wv rest Fok Nd Hf ((La & K) & Nf) Hs Wv Hok Hi Hr.
  destruct (Fok f Hf) as [Ff Tf]. destruct (Nf wv Wv) as (Pw & Nw). destruct (HPv _ _ Pw) as [Pl Cv].
  unfold smsg in Hi. rewrite <- !app_assoc in Hi.
  destruct (sir_msg J (fn_name f) CALL seq si _ (or_introl eq_refl) Tf Hs Hi) as (s1 & E1 & H1).
  destruct (kept_round x cf Ho _ _ K (proj1 Ff)) as (wv' & Wv' & Rr).
  fold (args_ty f) in Wv'. rewrite (wireof_fun _ _ _ _ _ Wv' Wv) in Rr. clear wv' Wv'.
  destruct (Rr false) as (v' & Rv & Sv). cbn [ue] in Rv.
  destruct (sir_val J x M cf (args_ty f) wv v' fuel s1 rest (proj1 Ff) (wireof_wf _ _ _ _ Wv) Pl Cv Rv Nw H1) as (s2 & G & H2).
  destruct (sir_end J s2 rest Hr H2) as (s3 & E3 & H3).
  pose proof (proj1 Ff) as So. inversion So as [| | | | | | | | | | | |? ? Mok Sok]; subst. destruct Mok as (Ndi & _ & _).
  unfold args_val in Sv. inversion Sv as [v0 Sc| | | |a n fc at1 a' fc' at2 Ef Es]; subst; [discriminate Sc|].
  set (vals := map (fun m => attribute at2 (m_id m)) (fn_args f)).
  assert (Fv : Forall2 same args vals).
  { apply s_combine; [congruence|assumption|]. intros m Hm. apply Es.
    replace (map fst (combine (map m_id (fn_args f)) args)) with (map m_id (fn_args f)); [apply in_map, Hm|].
    clear - La. revert args La. induction (fn_args f) as [|m l IH]; intros [|a args] L; cbn in *; try congruence. f_equal. apply IH. lia. }
  exists vals. unfold process. rewrite E1. cbn [obind]. rewrite (lookup_fn_in fs f Nd Hf).
  unfold process_fn. fold (args_ty f). rewrite G. cbn [obind]. rewrite E3. cbn [obind]. fold vals.
  specialize (Hok vals). destruct (handle h (fn_name f) vals) as [[attrs [text|]] h'] eqn:Eh.
  - rewrite s_write_exception. cbn [obind]. eexists. split; [reflexivity|].
    cbn [p_in p_out p_h p_err p_success option_map fst snd].
    split; [exact H3|]. split; [exact Fv|]. split; [reflexivity|]. split; [reflexivity|]. split; [split; discriminate|]. reflexivity.
  - destruct (Hok attrs h' Fv eq_refl) as [Ka Kr].
    destruct (s_result_round x cf fuel f attrs Ho Ff Ka (fun rf Rp => proj2 (Kr rf Rp))) as (rf & Rp & _).
    assert (Rp' : reply x f (if fn_oneway f then init_attrs (result_members f) else attrs) rf).
    { destruct (fn_oneway f) eqn:One; [|exact Rp].
      destruct (proj1 (proj2 (proj2 (proj2 Ff))) One) as [Er Ex].
      assert (Nt : forall a m, ~ thrown f a m) by (intros a m [Hm _]; rewrite Ex in Hm; exact Hm).
      inversion Rp as [m w T Mx Ww|t w N Et Ww|t N Et A|N Et]; subst; try congruence.
      - destruct (Nt _ _ T).
      - apply rp_void; [apply Nt|exact Er]. }
    rewrite smsg_begin by (unfold mtype; auto). cbn [obind].
    rewrite (s_result J x f _ rf fuel _ Ff Rp') by (apply (Kr rf Rp)). cbn [obind]. rewrite smsg_end. cbn [obind nop first_error].
    eexists. split; [reflexivity|]. cbn [p_in p_out p_h p_err p_success option_map fst snd].
    split; [exact H3|]. split; [exact Fv|]. split; [reflexivity|]. split; [reflexivity|]. split; [split; reflexivity|].
    exists rf. split; [exact Rp|]. unfold smsg. rewrite <- !app_assoc. reflexivity.
Qed.

Lemma s_recv : forall f seq s rest attrs rf, func_ok f -> text_ok J Strict (fn_name f) -> sattrs_ok f attrs -> in_s 32 seq ->
  reply x f attrs rf -> sir s (smsg J (result_ty f) (fn_name f) REPLY seq (VStruct rf) ++ rest) -> nows rest ->
  exists attrs' s', recv_on (simpleR J) x M cf fuel f seq s = Ok ((attrs', None), s') /\ sir s' rest /\ returned f attrs attrs'.
Proof.
  intros f seq s rest attrs rf Fok Tf (Ka & Kr) Hs Rp Hi Hr. destruct (Kr rf Rp) as (Pw & Nw). destruct (HPv _ _ Pw) as [Pl Cv].
  destruct (s_result_round x cf fuel f attrs Ho Fok Ka (fun rf Rp => proj2 (Kr rf Rp))) as (rf' & Rp' & attrs' & Rd & Ret).
  rewrite (reply_fun x f attrs rf rf' Fok Rp Rp') in Rd. clear rf' Rp'.
  unfold smsg in Hi. rewrite <- !app_assoc in Hi.
  destruct (sir_msg J (fn_name f) REPLY seq s _ (or_intror (or_introl eq_refl)) Tf Hs Hi) as (s1 & E1 & H1).
  destruct (sir_val J x M cf (result_ty f) _ _ fuel s1 rest (proj1 (proj2 Fok)) (reply_wf x f attrs rf Fok Rp) Pl Cv Rd Nw H1) as (s2 & G & H2).
  destruct (sir_end J s2 rest Hr H2) as (s3 & E3 & H3).
  exists attrs', s3. split; [|auto]. unfold recv_on. rewrite E1. cbn [obind].
  change (REPLY =? EXCEPTION) with false. cbn [negb]. rewrite Z.eqb_refl. cbn [negb]. fold (result_ty f).
  rewrite G. cbn [obind]. rewrite E3. reflexivity.
Qed.

(** The messages sent. *)
Definition sdoc (fs : list func) (b : bytes) : Prop :=
  exists f seq, In f fs /\ in_s 32 seq /\
    ((exists args wv, sargs_ok f args /\ wireof x (args_ty f) (args_val f args) wv /\
        b = smsg J (args_ty f) (fn_name f) CALL seq wv) \/
     (exists attrs rf, sattrs_ok f attrs /\ reply x f attrs rf /\
        b = smsg J (result_ty f) (fn_name f) REPLY seq (VStruct rf))).

Variable cut : nat -> bytes -> list bytes.
Variable fs : list func.
Hypothesis Fok : forall f, In f fs -> func_ok f /\ text_ok J Strict (fn_name f).
Hypothesis Nd : NoDup (map fn_name fs).
Variable Inv : H -> Prop.
Variable asked : func -> list any -> Prop.
Hypothesis Hok : forall f args h vals, asked f args -> Inv h -> Forall2 same args vals -> match handle h (fn_name f) vals with
  | ((attrs, None), h') => sattrs_ok f attrs /\ Inv h'
  | _ => False
  end.
Hypothesis Hcut : forall n b, sdoc fs b -> concat (cut n b) = b /\ readable Strict b [] (pieces_rt (cut n b)).

Definition idle (st : @pair jr jw H) : Prop :=
  c_factory (pr_c st) = true /\ c_out (pr_c st) = Some FromFactory /\ c_in (pr_c st) = Some FromFactory /\
  o_own (pr_w st) = simple_w (MkWt [] []) /\ pr_out st = simple_w (MkWt [] []) /\ sir (i_own (pr_w st)) [] /\ sir (pr_in st) [].

Lemma s_call : forall f args n st, In f fs -> fn_oneway f = false -> sargs_ok f args -> asked f args -> idle st -> Inv (pr_h st) ->
  exists r st', call (simpleR J) (simpleW J) nop sfreshR sfreshW x M cf fuel errtext handle fs jdrain jfeed cut n f args st = Ok (r, st') /\
    served handle f args (pr_h st) r (pr_h st') /\ idle st' /\ Inv (pr_h st').
Proof.
  intros f args n st Hf One Aok Ask (Cf & Co & Ci & Ho1 & Ho2 & Hi1 & Hi2) Hinv. destruct (Fok f Hf) as [Ff Tf].
  destruct (s_send f args (pr_c st) (pr_w st) [] Ff Aok Cf Co Ho1) as (wv & w1 & E1 & Wv & O1 & G1 & I1 & J1).
  set (seq := wraps 32 (c_seq (pr_c st) + 1)) in *. assert (Hs : in_s 32 seq) by (apply wraps_range; lia).
  cbn [app] in O1. set (b1 := smsg J (args_ty f) (fn_name f) CALL seq wv) in *.
  assert (Dr1 : jdrain (o_own w1) = (b1, simple_w (MkWt [] []))) by (rewrite O1; reflexivity).
  assert (Doc1 : sdoc fs b1) by (exists f, seq; split; [exact Hf|]; split; [exact Hs|]; left; eauto 6).
  destruct (Hcut (2 * n) _ Doc1) as [C1 C2].
  pose proof (sir_feed (pr_in st) (cut (2 * n) b1) Hi2 ltac:(rewrite C1; exact C2)) as F1. rewrite C1 in F1. rewrite <- (app_nil_r b1) in F1 at 2.
  assert (Nn : nows []) by (cbn; auto).
  assert (Hk : forall vals attrs h', Forall2 same args vals -> handle (pr_h st) (fn_name f) vals = ((attrs, None), h') -> sattrs_ok f attrs).
  { intros vals attrs h' Fv E. specialize (Hok f args (pr_h st) vals Ask Hinv Fv). rewrite E in Hok. apply Hok. }
  destruct (s_process fs f args (pr_h st) _ [] seq wv [] Fok Nd Hf Aok Hs Wv Hk F1 Nn) as (vals & p & P & Pi & Fv & Ph & _ & _ & Pm).
  pose proof (Hok f args (pr_h st) vals Ask Hinv Fv) as Hh.
  destruct (handle (pr_h st) (fn_name f) vals) as [[attrs [text|]] h'] eqn:Eh; [destruct Hh|]. destruct Hh as [Hh Hinv']. cbn [fst snd] in Ph, Pm.
  destruct Pm as (rf & Rp & Po). cbn [app] in Po. set (b2 := smsg J (result_ty f) (fn_name f) REPLY seq (VStruct rf)) in *.
  assert (Dr2 : jdrain (p_out p) = (b2, simple_w (MkWt [] []))) by (rewrite Po; reflexivity).
  assert (Doc2 : sdoc fs b2) by (exists f, seq; split; [exact Hf|]; split; [exact Hs|]; right; eauto 6).
  unfold call. rewrite E1. cbn [obind]. rewrite Dr1, Ho2, P. cbn [obind]. rewrite Dr2, One.
  destruct (Hcut (2 * n + 1) _ Doc2) as [C3 C4].
  rewrite I1. pose proof (sir_feed (i_own (pr_w st)) (cut (2 * n + 1) b2) Hi1 ltac:(rewrite C3; exact C4)) as F2.
  rewrite C3 in F2. rewrite <- (app_nil_r b2) in F2 at 2.
  unfold recv. cbn [c_in c_seq]. rewrite Ci. cbn [i_own].
  destruct (s_recv f seq _ [] attrs rf Ff Tf Hh Hs Rp F2 Nn) as (attrs' & s' & E2 & Hi' & Ret).
  rewrite E2. cbn [obind]. eexists _, _. split; [reflexivity|]. cbn [pr_h].
  split; [rewrite Ph; eapply sv_value; eassumption|]. split; [|rewrite Ph; exact Hinv'].
  unfold idle. cbn [pr_h pr_c pr_w pr_out pr_in o_own i_own c_factory c_in c_out].
  split; [reflexivity|]. split; [reflexivity|]. split; [reflexivity|]. auto.
Qed.
Lemma s_calls : forall l n st, idle st -> Inv (pr_h st) ->
  (forall f args, In (f, args) l -> In f fs /\ fn_oneway f = false /\ sargs_ok f args /\ asked f args) ->
  exists rs st', calls (simpleR J) (simpleW J) nop sfreshR sfreshW x M cf fuel errtext handle fs jdrain jfeed cut n l st = Ok (rs, st') /\
    serves handle l (pr_h st) rs (pr_h st') /\ idle st' /\ Inv (pr_h st').
Proof.
  induction l as [|[f args] l IH]; intros n st Is Hinv Lok.
  { exists [], st. split; [reflexivity|]. split; [constructor|split; assumption]. }
  destruct (Lok f args (or_introl eq_refl)) as (Hf & One & Aok & Ask). cbn [calls].
  destruct (s_call f args n st Hf One Aok Ask Is Hinv) as (r & st1 & E & Sv & Is1 & Hinv1).
  rewrite E. cbn [obind].
  destruct (IH (S n) st1 Is1 Hinv1 (fun g a Hg => Lok g a (or_intror Hg))) as (rs & st2 & E2 & Ss & B).
  rewrite E2. cbn [obind]. exists (r :: rs), st2. split; [reflexivity|]. split; [|exact B].
  econstructor; eassumption.
Qed.
End Calls.

(** Any service whose handler, for these calls and while its state is in [Inv], returns no errors of its own (the exceptions
    of the IDL are results); any number and order of calls, as C47.  The messages are cut into pieces the protocol can read.  Missing: handlers that fail, of which the rest is
    false ([C113_failed_refuted], [C113_afterwards_refuted]), and values TSimpleJSONProtocol does not keep ([splain], C79). *)
Theorem C113_calls_partial : forall H J x M cf fuel errtext (Pv : ty -> tval -> Prop)
    (handle : H -> bytes -> list any -> (list (Z * any) * option bytes) * H) (Inv : H -> Prop) fs cut l h,
  orders x -> (forall t w, Pv t w -> splain J t w /\ canon w = w) ->
  (forall f, In f fs -> func_ok f /\ text_ok J Strict (fn_name f)) -> NoDup (map fn_name fs) ->
  (forall n b, sdoc J x fuel Pv fs b -> concat (cut n b) = b /\ readable Strict b [] (pieces_rt (cut n b))) ->
  Inv h ->
  (forall f args h vals, In (f, args) l -> Inv h -> Forall2 same args vals -> match handle h (fn_name f) vals with
     | ((attrs, None), h') => sattrs_ok x fuel Pv f attrs /\ Inv h'
     | _ => False
     end) ->
  (forall f args, In (f, args) l -> In f fs /\ fn_oneway f = false /\ sargs_ok x fuel Pv f args) ->
  exists rs st, calls (simpleR J) (simpleW J) nop sfreshR sfreshW x M cf fuel errtext handle
      fs jdrain jfeed cut 0 l (sstart h) = Ok (rs, st) /\
    serves handle l h rs (pr_h st) /\ Inv (pr_h st) /\
    o_own (pr_w st) = simple_w (MkWt [] []) /\ pr_out st = simple_w (MkWt [] []) /\
    holds (fst (i_own (pr_w st))) [] /\ holds (fst (pr_in st)) [].
Proof.
  intros H J x M cf fuel errtext Pv handle Inv fs cut l h Ho HPv Fok Nd Hcut Hi Hok Lok.
  destruct (s_calls J x M cf fuel errtext handle Ho Pv HPv cut fs Fok Nd Inv (fun f args => In (f, args) l) Hok Hcut l 0%nat (sstart h))
    as (rs & st & E & Sv & Is & Hi').
  - unfold idle, sstart. cbn. split; [reflexivity|]. split; [reflexivity|]. split; [reflexivity|].
    split; [reflexivity|]. split; [reflexivity|]. split; apply sir_nil.
  - exact Hi.
  - intros f args Hl. destruct (Lok f args Hl) as (A & B & C). auto.
  - destruct Is as (_ & _ & _ & O1 & O2 & (_ & p1 & V1) & (_ & p2 & V2)).
    exists rs, st. split; [exact E|]. split; [exact Sv|]. split; [exact Hi'|]. split; [exact O1|]. split; [exact O2|].
    split; [exact (view_holds _ _ _ _ _ V1)|exact (view_holds _ _ _ _ _ V2)].
Qed.
Print Assumptions C113_calls_partial.

(** Messages in one piece: names of up to 1000 bytes and structs of up to 3000 when written. *)
Definition small (J : jenv) (t : ty) (w : tval) : Prop :=
  splain J t w /\ canon w = w /\ (length (stext J t w) <= 3000)%nat.
Lemma one_piece : forall doc, doc <> [] -> (length doc <= 4096)%nat -> tpos Strict 0 doc 0 = false ->
  readable Strict doc [] [(doc, None)].
Proof.
  intros doc N L T. split; [constructor; [split; [exact N|reflexivity]|constructor]|].
  split; [reflexivity|]. split; [exact L|]. cbn [ends]. repeat constructor; [assumption|].
  apply tpos_ge. cbn. lia.
Qed.
Lemma small_piece : forall J t name ty seq w, (length (json_quote (j_style J) name) <= 1000)%nat ->
  (length (stext J ty w) <= 3000)%nat ->
  readable Strict (smsg J ty name t seq w) [] (pieces_rt [smsg J ty name t seq w]).
Proof.
  intros J t name ty seq w Ln Lw. apply one_piece; [discriminate| |reflexivity].
  unfold smsg, smsg_head. rewrite !app_length. cbn [length].
  pose proof (format_len t). pose proof (format_len seq). lia.
Qed.
Theorem C113_small_calls_partial : forall H J x M cf fuel errtext
    (handle : H -> bytes -> list any -> (list (Z * any) * option bytes) * H) (Inv : H -> Prop) fs l h,
  orders x ->
  (forall f, In f fs -> func_ok f /\ text_ok J Strict (fn_name f) /\ (length (json_quote (j_style J) (fn_name f)) <= 1000)%nat) ->
  NoDup (map fn_name fs) ->
  Inv h ->
  (forall f args h vals, In (f, args) l -> Inv h -> Forall2 same args vals -> match handle h (fn_name f) vals with
     | ((attrs, None), h') => Inv h' /\
       (forall m, chosen f attrs m -> kept x (m_ty m) (attribute attrs (m_id m)) \/
                                      absent (m_ty m) (attribute attrs (m_id m))) /\
       forall rf, reply x f attrs rf -> small J (result_ty f) (VStruct rf) /\ (need (VStruct rf) <= fuel)%nat
     | _ => False
     end) ->
  (forall f args, In (f, args) l -> In f fs /\ fn_oneway f = false /\ kept_args x f args /\
     forall wv, wireof x (args_ty f) (args_val f args) wv -> small J (args_ty f) wv /\ (need wv <= fuel)%nat) ->
  exists rs st, calls (simpleR J) (simpleW J) nop sfreshR sfreshW x M cf fuel errtext handle
      fs jdrain jfeed (fun _ b => [b]) 0 l (sstart h) = Ok (rs, st) /\
    serves handle l h rs (pr_h st) /\ Inv (pr_h st).
Proof.
  intros H J x M cf fuel errtext handle Inv fs l h Ho Fok Nd Hi Hok Lok.
  destruct (C113_calls_partial H J x M cf fuel errtext (small J) handle Inv fs (fun _ b => [b]) l h) as (rs & st & E & Sv & Hi' & _);
    try assumption.
  - intros t w (P & C & _). auto.
  - intros f Hf. split; apply (Fok f Hf).
  - intros n b (f & seq & Hf & Hs & D). cbn [concat]. rewrite app_nil_r. split; [reflexivity|].
    destruct D as [(args & wv & (_ & A) & Wv & ->)|(attrs & rf & (_ & A) & Rp & ->)];
      (apply small_piece; [apply (Fok f Hf)|]).
    + apply (A wv Wv).
    + apply (A rf Rp).
  - intros f args g vals Hl Hg Fv. specialize (Hok f args g vals Hl Hg Fv).
    destruct (handle g (fn_name f) vals) as [[attrs [text|]] g']; [exact Hok|]. destruct Hok as (A & B & C). split; [split; assumption|exact A].
  - exists rs, st. split; [exact E|]. split; assumption.
Qed.
Print Assumptions C113_small_calls_partial.

(** ** Exceptions *)
Section Exceptions.
Variable J : jenv.
Variable x : ext.
Variable M : Z.
Variable cf fuel : nat.
Let R := simpleR J.
(** What [app_read] does behind the opening brace. *)
Definition app_rest (n : nat) (m : bytes) (t : Z) (s : jr) : outcome (option appexc * option err * jr) :=
  '(r, s2) <- app_fields R M n m t s ;;
  match r with
  | inr e => Ok (None, Some e, s2)
  | inl x => '(e, s3) <- rStructEnd R s2 ;; Ok (Some x, e, s3)
  end.
Lemma not_name : forall c, c <> 125 -> c <> 34 -> forall A (a b d : A), match c with 125 => a | 34 => b | _ => d end = d.
Proof.
  intros c H1 H2 A a b d. destruct c as [|c|c]; try reflexivity.
  do 8 (destruct c as [c|c|]; try reflexivity; try congruence).
Qed.
(** A number where a name should be. *)
Lemma number_as_name : forall t b s l n m ty, in_s 64 t -> (2 <= n)%nat -> view Strict b 34 (58 :: FormatInt t ++ s) [] ->
  exists ex s', app_rest n m ty (b, NextValue :: l) = Ok (ex, Some (EProtocol INVALID_DATA), s').
Proof.
  intros t b s l n m ty Ht Hn V. destruct n as [|n]; [lia|]. unfold app_rest. cbn [app_fields].
  destruct (numeric_format t Ht) as (Ne & N1 & N2 & y & Ny).
  assert (Hd : forall c, In c (FormatInt t) -> c <> 110 /\ c <> 78 /\ c <> 34) by (intros; eapply num_run_word; eassumption).
  assert (H125 : hd 0 (FormatInt t) <> 125).
  { destruct (FormatInt_decimal t Ht) as [d N F|d N F|d N F]; cbn; try lia. destruct d; [congruence|]. inversion F; subst. cbn. lia. }
  destruct (FormatInt t) as [|c d] eqn:Ef; [congruence|]. cbn [hd] in *.
  destruct (Hd c (or_introl eq_refl)) as (_ & _ & H34).
  change (58 :: (c :: d) ++ s) with (sep NextValue ++ (c :: d) ++ s) in V.
  destruct (pre_view Strict b 34 NextValue l ((c :: d) ++ s) [] V) as (b1 & p1 & E1 & V1 & _); [exact N2|apply rdy, Ks|].
  unfold hbind at 1, hlift. change (rFieldBegin R) with sReadFieldBegin. unfold sReadFieldBegin, pre. rewrite E1. cbn [obind].
  destruct (b_un b1) as [|z u] eqn:U.
  - cbn [obind]. change (STOP =? STOP) with true. cbn iota. unfold hret. cbn [obind].
    change (rStructEnd R) with (parse_end is_key 125). unfold parse_end.
    destruct (not_null _ _ _ _ _ V1) as (b2 & -> & V2); [exact N2|exact N1|].
    cbn [is_key obind]. eexists _, _. reflexivity.
  - cbn [app] in V1. destruct (un_head _ _ _ _ _ _ V1) as [u' U']; [congruence|]. assert (z = c) by congruence. subst z.
    rewrite (not_name c H125 H34). cbn [bad_data obind]. eexists _, _. reflexivity.
Qed.
Lemma skip_generic : forall n s, (1 <= n)%nat -> skip_default R M n GENERIC s = Ok (None, s).
Proof. intros n s Hn. destruct n as [|n]; [lia|]. reflexivity. Qed.
(** A name is passed over, its value is not. *)
Lemma name_step : forall n name b b' l m ty c, (3 <= n)%nat ->
  sReadFieldBegin (b, c :: l) = Ok ((name, GENERIC, -1), None, b') ->
  app_rest n m ty (b, c :: l) = app_rest (pred n) m ty b'.
Proof.
  intros n name b b' l m ty c Hn E. destruct n as [|n]; [lia|]. unfold app_rest. cbn [app_fields pred].
  unfold hbind at 1, hlift. change (rFieldBegin R) with sReadFieldBegin. rewrite E. cbn [obind].
  change (GENERIC =? STOP) with false. change (-1 =? 1) with false. change (-1 =? 2) with false. cbn iota.
  unfold hbind at 1. unfold hbind at 1. unfold hdo at 1. rewrite skip_generic by lia. cbn [obind hret].
  unfold hbind at 1, hdo at 1. reflexivity.
Qed.
(** A string where a name should be: it is read as one, or it has not arrived yet. *)
Lemma string_as_name : forall text b s l n m ty, text_ok J Strict text -> (3 <= n)%nat ->
  view Strict b 34 (58 :: json_quote (j_style J) text ++ 44 :: s) [] ->
  (exists ex s', app_rest n m ty (b, NextValue :: l) = Ok (ex, Some (EProtocol INVALID_DATA), s')) \/
  exists b', app_rest n m ty (b, NextValue :: l) = app_rest (pred n) m ty (b', NextKey :: l) /\ view Strict b' 34 (44 :: s) [].
Proof.
  intros text b s l n m ty [(cs & F & ->) Fi] Hn V.
  pose proof (unquote_quote (j_style J) cs F) as U. rewrite json_quote_utf8 in * by assumption.
  change (quote_text (j_style J) cs) with (quoted (flat_map (esc (j_style J)) cs)) in *.
  change (58 :: quoted (flat_map (esc (j_style J)) cs) ++ 44 :: s) with (sep NextValue ++ quoted (flat_map (esc (j_style J)) cs) ++ 44 :: s) in V.
  destruct (pre_view Strict b 34 NextValue l _ [] V eq_refl (rdy Strict Ks _ _)) as (b1 & p1 & E1 & V1 & _).
  unfold quoted in V1. cbn [app] in V1. rewrite <- app_assoc in V1. cbn [app] in V1.
  destruct (b_un b1) as [|z u] eqn:Hu.
  - left. destruct n as [|n]; [lia|]. unfold app_rest. cbn [app_fields].
    unfold hbind at 1, hlift. change (rFieldBegin R) with sReadFieldBegin. unfold sReadFieldBegin, pre. rewrite E1. cbn [obind].
    rewrite Hu. cbn [obind]. change (STOP =? STOP) with true. cbn iota. unfold hret. cbn [obind].
    change (rStructEnd R) with (parse_end is_key 125). unfold parse_end.
    destruct (not_null _ _ _ _ _ V1) as (b2 & -> & V2); [reflexivity|cbn; lia|].
    cbn [is_key obind]. eexists _, _. reflexivity.
  - right. destruct (un_head _ _ _ _ _ _ V1) as [u' U']; [congruence|]. assert (z = 34) by congruence. subst z. clear u' U'.
    assert (V2 : view Strict (b_advance 1 b1) 34 (flat_map (esc (j_style J)) cs ++ 34 :: 44 :: s) []).
    { apply (advance_view Strict b1 p1 [34]); [exact V1|]. rewrite Hu. cbn. lia. }
    destruct (string_body_view (flat_map (esc (j_style J)) cs) (utf8 cs) Strict (b_advance 1 b1) 34 (44 :: s) []) as (b3 & E3 & V3);
      [now apply body_escs| |exact U|exact V2|].
    { eapply fits_le; [exact Fi|]. unfold quoted. rewrite !app_length. lia. }
    destruct (post_view _ (utf8 cs, GENERIC, -1) Strict b3 34 NextValue l (44 :: s) [] V3 eq_refl) as (b4 & E4 & V4).
    exists b4. split; [|exact V4]. apply name_step with (name := utf8 cs); [exact Hn|].
    unfold sReadFieldBegin, pre. rewrite E1. cbn [obind]. rewrite Hu. rewrite E3. cbn [obind]. exact E4.
Qed.
Lemma app_read_fails : forall e s c l, text_ok J Strict (x_msg e) -> in_s 32 (x_type e) -> (5 <= fuel)%nat ->
  forall b p, is_key c = false -> view Strict b p (sep c ++ stext J exc_ty (VStruct (exc_fields e)) ++ s) [] ->
  exists ex s', app_read R M fuel (b, c :: l) = Ok (ex, Some (EProtocol INVALID_DATA), s').
Proof.
  intros [t m] s c l Tm Tt Hf b p K V. cbn [x_msg x_type] in *.
  assert (T64 : in_s 64 t) by (apply (in_s_64 32); [lia|assumption]).
  assert (Tn : forall q, forallb (fun c => (0 <=? c) && (c <? 128)) q = true -> text_ok J Strict q).
  { intros q Hq. split; [apply ascii_utf8, Hq|exact I]. }
  unfold exc_ty in V. rewrite stext_struct in V. rewrite <- !app_assoc in V. cbn [app] in V.
  destruct (ObjectStart_view c Strict b p _ [] l (rdy _ Ks _ _) V) as (b1 & E1 & V1).
  assert (Q : app_read R M fuel (b, c :: l) = app_rest fuel [] UNKNOWN_APPLICATION_EXCEPTION (b1, ObjFirst :: c :: l)).
  { unfold app_read. change (rStructBegin R) with ReadStructBegin. unfold ReadStructBegin. rewrite E1. reflexivity. }
  rewrite Q. clear Q E1 V.
  assert (G : forall b p d n m' ty', is_key d = true -> (d = ObjFirst -> p = 123) -> (3 <= n)%nat ->
     view Strict b p (sep d ++ sfield J [Mem 1 s_message false None TyString; Mem 2 s_type false None TyI32] (2, VI32 t) ++ 125 :: s) [] ->
     exists ex s', app_rest n m' ty' (b, d :: c :: l) = Ok (ex, Some (EProtocol INVALID_DATA), s')).
  { intros b0 p0 d n m' ty' Kd Hp Hn V0. unfold sfield in V0. cbn [mem_name mem_ty mem_of find m_id m_name m_ty fst snd Z.eqb Pos.eqb stext] in V0.
    rewrite <- !app_assoc in V0.
    destruct (sFieldBegin_view J d s_type b0 p0 (FormatInt t ++ 125 :: s) [] (c :: l) Kd Hp (Tn s_type eq_refl) V0) as (b2 & E2 & V2).
    rewrite (name_step n s_type _ _ _ _ _ _ Hn E2). apply (number_as_name t b2 (125 :: s)); [exact T64|lia|exact V2]. }
  destruct m as [|y m].
  - apply (G b1 123 ObjFirst); [reflexivity|auto|lia|].
    unfold exc_fields in V1. cbn [x_msg x_type app] in V1. rewrite sfields_cons in V1. rewrite <- !app_assoc in V1. exact V1.
  - unfold exc_fields in V1. cbn [x_msg x_type app] in V1. rewrite !sfields_cons in V1. rewrite <- !app_assoc in V1.
    unfold sfield in V1 at 1. cbn [mem_name mem_ty mem_of find m_id m_name m_ty fst snd Z.eqb Pos.eqb stext] in V1.
    rewrite <- !app_assoc in V1. cbn [sfields] in V1. change ([] ++ 125 :: s) with (125 :: s) in V1.
    destruct (sFieldBegin_view J ObjFirst s_message b1 123 (json_quote (j_style J) (y :: m) ++ sep NextKey ++
       sfield J [Mem 1 s_message false None TyString; Mem 2 s_type false None TyI32] (2, VI32 t) ++ 125 :: s) [] (c :: l)
       eq_refl (fun _ => eq_refl) (Tn s_message eq_refl) V1) as (b2 & E2 & V2).
    rewrite (name_step fuel s_message _ _ _ _ _ _ ltac:(lia) E2).
    destruct (string_as_name (y :: m) b2 _ (c :: l) (pred fuel) [] UNKNOWN_APPLICATION_EXCEPTION Tm ltac:(lia) V2) as [D|(b3 & E3 & V3)];
      [exact D|].
    rewrite E3. apply (G b3 34 NextKey); [reflexivity|discriminate|lia|exact V3].
Qed.
(** No exception of a processor reaches the caller as such: reading it always fails. *)
Lemma s_recv_exc : forall f e name seq seq' s rest, text_ok J Strict name -> text_ok J Strict (x_msg e) -> in_s 32 (x_type e) -> in_s 32 seq ->
  (5 <= fuel)%nat -> sir s (smsg J exc_ty name EXCEPTION seq (VStruct (exc_fields e)) ++ rest) ->
  exists s', recv_on R x M cf fuel f seq' s = Ok ((zero_attrs (result_members f), Some (RErr (EProtocol INVALID_DATA))), s').
Proof.
  intros f e name seq seq' s rest Tn Tm Tt Hs Hf Hi. unfold smsg in Hi. rewrite <- !app_assoc in Hi.
  destruct (sir_msg J name EXCEPTION seq s _ (or_intror (or_intror eq_refl)) Tn Hs Hi) as ([b l] & E1 & (L1 & p & V1)).
  cbn [fst snd] in *. subst l. unfold recv_on. fold R in E1. rewrite E1. cbn [obind]. change (EXCEPTION =? EXCEPTION) with true. cbn iota.
  destruct (app_read_fails e ([93] ++ rest) InList [TopLevel] Tm Tt Hf b p eq_refl V1) as (ex & s' & E2).
  rewrite E2. cbn [obind]. eexists. reflexivity.
Qed.
End Exceptions.

(** A handler that fails: its caller gets a protocol error, INVALID_DATA, and not what C47 says it gets ([served]).  For every
    service, state in which nothing is under way, arguments and error. *)
Theorem C113_failed_refuted : forall H J x M cf fuel errtext (Pv : ty -> tval -> Prop)
    (handle : H -> bytes -> list any -> (list (Z * any) * option bytes) * H) fs cut n f args st,
  orders x -> (forall t w, Pv t w -> splain J t w /\ canon w = w) -> (5 <= fuel)%nat ->
  (forall f, In f fs -> func_ok f /\ text_ok J Strict (fn_name f)) -> NoDup (map fn_name fs) ->
  (forall n b, sdoc J x fuel Pv fs b -> concat (cut n b) = b /\ readable Strict b [] (pieces_rt (cut n b))) ->
  In f fs -> fn_oneway f = false -> sargs_ok x fuel Pv f args -> idle st ->
  (forall vals, Forall2 same args vals -> match handle (pr_h st) (fn_name f) vals with
     | ((_, Some text), _) =>
       let e := MkExc INTERNAL_ERROR (s_internal ++ fn_name f ++ s_colon ++ text) in
       text_ok J Strict (x_msg e) /\
       forall n seq, in_s 32 seq -> let b := smsg J exc_ty (fn_name f) EXCEPTION seq (VStruct (exc_fields e)) in
         concat (cut n b) = b /\ readable Strict b [] (pieces_rt (cut n b))
     | _ => False
     end) ->
  exists vals st', Forall2 same args vals /\ pr_h st' = snd (handle (pr_h st) (fn_name f) vals) /\
    let r := (zero_attrs (result_members f), Some (RErr (EProtocol INVALID_DATA))) in
    call (simpleR J) (simpleW J) nop sfreshR sfreshW x M cf fuel errtext handle fs jdrain jfeed cut n f args st = Ok (r, st') /\
    ~ served handle f args (pr_h st) r (pr_h st').
Proof.
  intros H J x M cf fuel errtext Pv handle fs cut n f args st Ho HPv F5 Fok Nd Hcut Hf One Aok (Cf & Co & Ci & Ho1 & Ho2 & Hi1 & Hi2) Hbad.
  destruct (Fok f Hf) as [Ff Tf].
  destruct (s_send J x cf fuel Ho Pv f args (pr_c st) (pr_w st) [] Ff Aok Cf Co Ho1) as (wv & w1 & E1 & Wv & O1 & G1 & I1 & J1).
  set (seq := wraps 32 (c_seq (pr_c st) + 1)) in *. assert (Hs : in_s 32 seq) by (apply wraps_range; lia).
  cbn [app] in O1. set (b1 := smsg J (args_ty f) (fn_name f) CALL seq wv) in *.
  assert (Dr1 : jdrain (o_own w1) = (b1, simple_w (MkWt [] []))) by (rewrite O1; reflexivity).
  assert (Doc1 : sdoc J x fuel Pv fs b1) by (exists f, seq; split; [exact Hf|]; split; [exact Hs|]; left; eauto 6).
  destruct (Hcut (2 * n)%nat _ Doc1) as [C1 C2].
  pose proof (sir_feed (pr_in st) (cut (2 * n)%nat b1) Hi2 ltac:(rewrite C1; exact C2)) as F1. rewrite C1 in F1.
  rewrite <- (app_nil_r b1) in F1 at 2. assert (Nn : nows []) by (cbn; auto).
  assert (Hk : forall vals attrs h', Forall2 same args vals -> handle (pr_h st) (fn_name f) vals = ((attrs, None), h') -> sattrs_ok x fuel Pv f attrs).
  { intros vals attrs h' Fv E. specialize (Hbad vals Fv). rewrite E in Hbad. destruct Hbad. }
  destruct (s_process J x M cf fuel errtext handle Ho Pv HPv fs f args (pr_h st) _ [] seq wv [] Fok Nd Hf Aok Hs Wv Hk F1 Nn)
    as (vals & p & P & Pi & Fv & Ph & _ & _ & Pm).
  specialize (Hbad vals Fv). destruct (handle (pr_h st) (fn_name f) vals) as [[attrs [text|]] h'] eqn:Eh; [|destruct Hbad]. cbn [fst snd] in Ph, Pm.
  cbv zeta in Hbad. set (e := MkExc INTERNAL_ERROR (s_internal ++ fn_name f ++ s_colon ++ text)) in *. destruct Hbad as [Te Ce].
  cbn [app] in Pm. set (b2 := smsg J exc_ty (fn_name f) EXCEPTION seq (VStruct (exc_fields e))) in *.
  assert (Dr2 : jdrain (p_out p) = (b2, simple_w (MkWt [] []))) by (rewrite Pm; reflexivity).
  destruct (Ce (2 * n + 1)%nat seq Hs) as [C3 C4]. fold b2 in C3, C4.
  pose proof (sir_feed (i_own (pr_w st)) (cut (2 * n + 1)%nat b2) Hi1 ltac:(rewrite C3; exact C4)) as F2. rewrite C3 in F2.
  rewrite <- (app_nil_r b2) in F2 at 2.
  destruct (s_recv_exc J x M cf fuel f e (fn_name f) seq seq _ [] Tf Te ltac:(split; [discriminate|reflexivity]) Hs F5 F2) as (s' & E2).
  exists vals. eexists. split; [exact Fv|]. rewrite Eh. cbv zeta.
  match goal with |- ?a /\ ?b /\ ?c => enough (b /\ a /\ c) by tauto end.
  split.
  - unfold call. rewrite E1. cbn [obind]. rewrite Dr1, Ho2, P. cbn [obind]. rewrite Dr2, One, I1.
    unfold recv. cbn [c_in c_seq]. rewrite Ci. cbn [i_own]. rewrite E2. cbn [obind]. reflexivity.
  - cbn [pr_h]. split; [exact Ph|]. intro S. inversion S.
Qed.
Print Assumptions C113_failed_refuted.

(** As ex_handle9, but it never fails. *)
Definition ex_handle13 (h : Z) (name : bytes) (vals : list any) : (list (Z * any) * option bytes) * Z :=
  match ex_handle9 h name vals with ((_, Some _), _) => (([(0, AInt64 42); (1, ANil)], None), h + 1) | r => r end.
Lemma ex13_attrs : forall h name vals, exists z e h', ex_handle13 h name vals = (([(0, AInt64 z); (1, e)], None), h') /\
  (z = 0 \/ z = 42) /\ (e = ANil \/ e = ex_raise [110; 101; 103]).
Proof.
  intros h name vals. unfold ex_handle13. destruct (ex_handle9 h name vals) as [[attrs [text|]] h'] eqn:E.
  - exists 42, ANil, (h + 1). auto.
  - apply ex9_attrs in E. destruct E as (z & e & -> & Hz & He). exists z, e, h'. auto.
Qed.
Lemma strict_of : forall s, forallb (fun c => (0 <=? c) && (c <? 128)) s = true -> text_ok J0 Strict s.
Proof. intros s H. split; [apply ascii_utf8, H|exact I]. Qed.
Lemma ex13_ok : forall f h vals, In f ex_fs -> match ex_handle13 h (fn_name f) vals with
  | ((attrs, None), _) =>
    (forall m, chosen f attrs m -> kept ext0 (m_ty m) (attribute attrs (m_id m)) \/
                                   absent (m_ty m) (attribute attrs (m_id m))) /\
    forall rf, reply ext0 f attrs rf -> small J0 (result_ty f) (VStruct rf) /\ (need (VStruct rf) <= 40)%nat
  | _ => False
  end.
Proof.
  intros f h vals Hf. destruct (ex13_attrs h (fn_name f) vals) as (z & e & h' & -> & Hz & He).
  assert (Raise : is_bytes [110; 101; 103] /\ Z.of_nat (length [110; 101; 103]) < 2 ^ 31)
    by (split; [concrete|vm_compute; reflexivity]).
  destruct Hf as [<-|[<-|[]]].
  - split.
    + intros m [[[Hm Nm] _]|(_ & t & Et & ->)].
      * destruct Hm as [<-|[]]. left. cbn [m_ty m_id] in *. destruct He as [-> | ->]; [destruct (Nm eq_refl)|].
        change (kept ext0 ex_oops (ex_raise [110; 101; 103])).
        apply k_struct; [reflexivity| |]; intros m [<-|[]].
        -- intros _. cbn. apply k_string; apply Raise.
        -- discriminate.
      * injection Et; intros; subst t. left. cbn. apply k_i64. destruct Hz as [-> | ->]; unfold in_s; cbn; lia.
    + intros rf Rp. inversion Rp as [m w [Hm Nm] _ Ww|t w _ Et Ww|t N Et A|N Et]; subst.
      * destruct Hm as [<-|[]]. cbn [m_ty m_id] in *. destruct He as [-> | ->]; [destruct (Nm eq_refl)|].
        change (attribute _ 1) with (ex_raise [110; 101; 103]) in Ww.
        rewrite (wireof_fun _ _ _ _ _ Ww (ex_raise_wire _ (proj1 Raise) (proj2 Raise))).
        split; [|cbn; lia]. split; [|split; [reflexivity|vm_compute; lia]].
        cbn. repeat split; try discriminate; apply strict_of; reflexivity.
      * injection Et; intros; subst t. change (attribute _ 0) with (AInt64 z) in Ww.
        inversion Ww; subst. split; [|cbn; lia]. split; [cbn; repeat split; try discriminate; apply strict_of; reflexivity|].
        split; [reflexivity|]. destruct Hz as [-> | ->]; vm_compute; lia.
      * injection Et; intros; subst t. destruct A as [(D & _)|(tag & n & cs & D & _)]; discriminate.
      * split; [|cbn; lia]. split; [exact I|]. split; [reflexivity|vm_compute; lia].
  - split.
    + intros m [[[Hm _] _]|(_ & t & Et & _)]; [destruct Hm|discriminate].
    + intros rf Rp. inversion Rp as [m w [Hm Nm] _ Ww|t w _ Et Ww|t N Et A|N Et]; subst; try discriminate; [destruct Hm|].
      split; [|cbn; lia]. split; [exact I|]. split; [reflexivity|vm_compute; lia].
Qed.
Lemma ex13_funcs : forall f, In f ex_fs ->
  func_ok f /\ text_ok J0 Strict (fn_name f) /\ (length (json_quote (j_style J0) (fn_name f)) <= 1000)%nat.
Proof.
  intros f Hf. split; [apply ex_ok; destruct Hf as [<-|[<-|[]]]; cbn; auto|].
  destruct Hf as [<-|[<-|[]]]; (split; [apply strict_of; reflexivity|vm_compute; lia]).
Qed.
Lemma ex13_args : kept_args ext0 ex_add ex_args /\
  forall wv, wireof ext0 (args_ty ex_add) (args_val ex_add ex_args) wv -> small J0 (args_ty ex_add) wv /\ (need wv <= 40)%nat.
Proof.
  split; [exact ex_args_kept|]. intros wv Ww. rewrite (wireof_fun _ _ _ _ _ Ww ex_args_wire). split; [|cbn; lia].
  split; [|split; [reflexivity|vm_compute; lia]]. cbn. repeat split; try discriminate; apply strict_of; reflexivity.
Qed.
Definition ex13_calls : list (func * list any) := [(ex_add, arg0 5); (ex_add, arg0 (-1)); (ex_add, ex_args)].
Lemma arg0_kept : forall z, in_s 32 z -> kept_args ext0 ex_add (arg0 z) /\
  wireof ext0 (args_ty ex_add) (args_val ex_add (arg0 z)) (VStruct [(1, VI32 z); (2, VList STRING [])]).
Proof.
  intros z Hz. split.
  - split; [reflexivity|]. apply k_struct; [reflexivity| |]; intros m [<-|[<-|[]]]; cbn; try discriminate; intros _.
    + constructor. exact Hz.
    + apply k_list; [exact I|vm_compute; reflexivity|]. intros u [].
  - apply wo_struct. eapply wof_take; [reflexivity|unfold in_s; cbn; lia|constructor; exact Hz|].
    eapply wof_take; [reflexivity|unfold in_s; cbn; lia| |constructor].
    apply wo_list; [vm_compute; reflexivity|constructor].
Qed.
Lemma ex13_calls_ok : forall f args, In (f, args) ex13_calls -> In f ex_fs /\ fn_oneway f = false /\ kept_args ext0 f args /\
  forall wv, wireof ext0 (args_ty f) (args_val f args) wv -> small J0 (args_ty f) wv /\ (need wv <= 40)%nat.
Proof.
  assert (A : forall z, z = 5 \/ z = -1 -> In ex_add ex_fs /\ fn_oneway ex_add = false /\ kept_args ext0 ex_add (arg0 z) /\
    forall wv, wireof ext0 (args_ty ex_add) (args_val ex_add (arg0 z)) wv -> small J0 (args_ty ex_add) wv /\ (need wv <= 40)%nat).
  { intros z Hz. destruct (arg0_kept z) as [K W]; [unfold in_s; cbn; lia|]. split; [cbn; auto|]. split; [reflexivity|]. split; [exact K|].
    intros wv Ww. rewrite (wireof_fun _ _ _ _ _ Ww W). split; [|cbn; lia].
    split; [cbn; repeat split; try discriminate; apply strict_of; reflexivity|]. split; [reflexivity|].
    destruct Hz as [-> | ->]; vm_compute; lia. }
  intros f args Hl. destruct Hl as [E|[E|[E|[]]]]; injection E; intros; subst f args; [apply A; auto|apply A; auto|].
  split; [cbn; auto|]. split; [reflexivity|]. exact ex13_args.
Qed.
(** All hypotheses of [C113_small_calls_partial], and what its calls give. *)
Example C113_case :
  orders ext0 /\
  (forall f, In f ex_fs -> func_ok f /\ text_ok J0 Strict (fn_name f) /\ (length (json_quote (j_style J0) (fn_name f)) <= 1000)%nat) /\
  NoDup (map fn_name ex_fs) /\
  (forall f args h vals, In (f, args) ex13_calls -> True -> Forall2 same args vals -> match ex_handle13 h (fn_name f) vals with
     | ((attrs, None), _) => True /\
       (forall m, chosen f attrs m -> kept ext0 (m_ty m) (attribute attrs (m_id m)) \/
                                      absent (m_ty m) (attribute attrs (m_id m))) /\
       forall rf, reply ext0 f attrs rf -> small J0 (result_ty f) (VStruct rf) /\ (need (VStruct rf) <= 40)%nat
     | _ => False
     end) /\
  (forall f args, In (f, args) ex13_calls -> In f ex_fs /\ fn_oneway f = false /\ kept_args ext0 f args /\
     forall wv, wireof ext0 (args_ty f) (args_val f args) wv -> small J0 (args_ty f) wv /\ (need wv <= 40)%nat) /\
  smsg J0 (args_ty ex_add) (lit "add") CALL 1 ex_argsw = lit "[""add"",1,1,{""a"":5,""t"":[11,2,""x"",""""]}]" /\
  let rs := [([(0, AInt64 42); (1, ANil)], None);
             ([(0, AInt64 0); (1, ex_raise [110; 101; 103])], None);
             ([(0, AInt64 42); (1, ANil)], None)] in
  (match calls (simpleR J0) (simpleW J0) nop sfreshR sfreshW ext0 64 5 40 errtext0 ex_handle13
     ex_fs jdrain jfeed (fun _ b => [b]) 0 ex13_calls (sstart 10) with
   | Ok (rs', st) => rs' = rs /\ pr_h st = 13
   | _ => False
   end).
Proof.
  split; [exact ext0_orders|]. split; [exact ex13_funcs|]. split; [nodup|]. split.
  { intros f args h vals Hl _ _. pose proof (ex13_ok f h vals (proj1 (ex13_calls_ok f args Hl))) as A.
    destruct (ex_handle13 h (fn_name f) vals) as [[attrs [text|]] h']; [exact A|]. split; [exact I|exact A]. }
  split; [exact ex13_calls_ok|]. split; [vm_compute; reflexivity|].
  cbv zeta. vm_compute; split; reflexivity.
Qed.

(** Hypotheses of [C113_answers] (the hypotheses on results: [ex13_ok]; here the requests) and of [C113_failed_refuted]. *)
Definition ex_fail (h : Z) (name : bytes) (vals : list any) : (list (Z * any) * option bytes) * Z := (([], Some [122]), h + 1).
Example C113_failed_case :
  sargs_ok ext0 40 (small J0) ex_add ex_args /\ idle (sstart 7) /\
  (forall (n : nat) b, sdoc J0 ext0 40 (small J0) ex_fs b -> concat [b] = b /\ readable Strict b [] (pieces_rt [b])) /\
  (forall vals, Forall2 same ex_args vals -> match ex_fail 7 (fn_name ex_add) vals with
     | ((_, Some text), _) =>
       let e := MkExc INTERNAL_ERROR (s_internal ++ fn_name ex_add ++ s_colon ++ text) in
       text_ok J0 Strict (x_msg e) /\
       forall (n : nat) seq, in_s 32 seq -> let b := smsg J0 exc_ty (fn_name ex_add) EXCEPTION seq (VStruct (exc_fields e)) in
         concat [b] = b /\ readable Strict b [] (pieces_rt [b])
     | _ => False
     end) /\
  smsg J0 exc_ty (lit "add") EXCEPTION 1 (VStruct (exc_fields (MkExc 6 (lit "x")))) = lit "[""add"",3,1,{""message"":""x"",""type"":6}]" /\
  (exists st, call (simpleR J0) (simpleW J0) nop sfreshR sfreshW ext0 64 5 40 errtext0 ex_fail ex_fs jdrain jfeed (fun _ b => [b])
     0 ex_add ex_args (sstart 7) = Ok (([(0, AInt64 0); (1, ANil)], Some (RErr (EProtocol INVALID_DATA))), st) /\ pr_h st = 8) /\
  (exists p, process (simpleR J0) (simpleW J0) nop ext0 64 5 40 errtext0 ex_handle13 ex_fs 3
     (simple_r [(lit "[""sub"",1,9,{}]", None)]) (simple_w (MkWt [] [])) = Ok p /\ p_h p = 3 /\
   p_out p = simple_w (MkWt (lit "[""sub"",3,9,{""message"":""Unknown function sub"",""type"":1}]") [])) /\
  (exists p, process (simpleR J0) (simpleW J0) nop ext0 64 5 40 errtext0 ex_handle13 ex_fs 3
     (simple_r [(lit "[""add"",1,9,{""a"":", None)]) (simple_w (MkWt [] [])) = Ok p /\ p_h p = 3 /\
   p_out p = simple_w (MkWt (lit "[""add"",3,9,{""message"":""err"",""type"":7}]") [])).
Proof.
  split; [exact ex13_args|].
  split. { unfold idle, sstart. cbn. split; [reflexivity|]. split; [reflexivity|]. split; [reflexivity|].
    split; [reflexivity|]. split; [reflexivity|]. split; apply sir_nil. }
  split.
  { intros n b (f & seq & Hf & Hs & D). cbn [concat]. rewrite app_nil_r. split; [reflexivity|].
    destruct D as [(args & wv & (_ & A) & Wv & ->)|(attrs & rf & (_ & A) & Rp & ->)];
      (apply small_piece; [apply (ex13_funcs f Hf)|]).
    - apply (A wv Wv).
    - apply (A rf Rp). }
  split.
  { intros vals _. unfold ex_fail. cbv zeta. split; [apply strict_of; reflexivity|]. intros n seq Hs. cbn [concat]. rewrite app_nil_r.
    split; [reflexivity|]. apply small_piece; vm_compute; lia. }
  split; [vm_compute; reflexivity|].
  split; [eexists; split; vm_compute; reflexivity|].
  split; (eexists; split; [vm_compute; reflexivity|]; split; vm_compute; reflexivity).
Qed.

(** After an exception the client is of no use any more: the call after it fails too, though the handler served it. *)
Theorem C113_afterwards_refuted : exists l rs,
  (forall f args, In (f, args) l -> In f ex_fs /\ func_ok f /\ fn_oneway f = false /\ kept_args ext0 f args) /\
  match calls (simpleR J0) (simpleW J0) nop sfreshR sfreshW ext0 64 5 40 errtext0 ex_handle9
      ex_fs jdrain jfeed (fun _ b => [b]) 0 l (sstart 10) with
  | Ok (rs', st) => rs' = rs /\ pr_h st = 12
  | _ => False
  end /\
  map snd rs = [None; Some (RErr (EProtocol INVALID_DATA)); Some (RErr (EProtocol INVALID_DATA))] /\
  ~ exists h, serves ex_handle9 l 10 rs h.
Proof.
  exists [(ex_add, ex_args); (ex_add, arg0 0); (ex_add, ex_args)]. eexists.
  split.
  { assert (A : func_ok ex_add) by (apply ex_ok; cbn; auto).
    assert (B : kept_args ext0 ex_add (arg0 0)) by (apply arg0_kept; unfold in_s; cbn; lia).
    intros f args Hl. cbn in Hl.
    destruct Hl as [E|[E|[E|[]]]]; injection E; intros; subst f args; (split; [cbn; auto|]);
      (split; [exact A|]; split; [reflexivity|first [exact ex_args_kept|exact B]]). }
  split; [vm_compute; split; reflexivity|]. split; [reflexivity|].
  intros (h & Sv). inversion Sv as [|? ? ? ? ? ? ? ? _ S2]; subst.
  inversion S2 as [|? ? ? ? ? ? ? ? S3 _]; subst. inversion S3.
Qed.
Print Assumptions C113_afterwards_refuted.

(** A request for an unknown method is answered, but not skipped: the request behind it, a valid one, is not read. *)
Theorem C113_unknown_refuted : exists req next p,
  req = smsg J0 (TyStruct [] [Mem 1 [97] false None TyI32]) (lit "sub") CALL 9 (VStruct [(1, VI32 5)]) /\
  next = smsg J0 (args_ty ex_add) (lit "add") CALL 10 ex_argsw /\
  process (simpleR J0) (simpleW J0) nop ext0 64 5 40 errtext0 ex_handle13 ex_fs 3
    (simple_r [(req ++ next, None)]) (simple_w (MkWt [] [])) = Ok p /\
  p_h p = 3 /\ p_out p = simple_w (MkWt (lit "[""sub"",3,9,{""message"":""Unknown function sub"",""type"":1}]") []) /\
  (exists q, process (simpleR J0) (simpleW J0) nop ext0 64 5 40 errtext0 ex_handle13 ex_fs 3
     (simple_r [(next, None)]) (simple_w (MkWt [] [])) = Ok q /\ p_success q = true /\ p_h q = 4) /\
  exists q, process (simpleR J0) (simpleW J0) nop ext0 64 5 40 errtext0 ex_handle13 ex_fs 3
    (p_in p) (p_out p) = Ok q /\ p_success q = false /\ p_err q = Some (RErr (EProtocol INVALID_DATA)) /\ p_h q = 3.
Proof.
  eexists _, _, _. split; [reflexivity|]. split; [reflexivity|]. split; [vm_compute; reflexivity|].
  split; [reflexivity|]. split; [vm_compute; reflexivity|].
  split; eexists; (split; [vm_compute; reflexivity|]); [split; reflexivity|]. split; [reflexivity|]. split; reflexivity.
Qed.
Print Assumptions C113_unknown_refuted.
