(** C119, over TJSONProtocol: which services no input can make panic. *)
From Coq Require Import ZArith List Bool Lia String.
From Coq Require Import ZifyBool ZifyNat.
From Verif Require Import Base Arith Errors Transport TransportProofs Proto Values WfDec Access Strconv JsonText JsonTextProofs
  Skip SkipProofs ReadProg F64 TField GoVal Names Compare TList TSet TMap Gen GenSpec GenProofs GenInst GenRound
  BufIO BufRead BufReadProofs Json JsonSpec JsonWrite JsonRead JsonReadVal JsonForm JsonTotal JsonSkip PropJson PropJsonTotal PropGen PropJsonGen
  AppExc AppExcProofs PropRpc Rpc RpcProofs PropService PropJsonRpc Serve PropCalm Tutorial PropTutorial.
Import ListNotations.
Local Open Scope list_scope.
Local Notation length := List.length.
Local Notation concat := List.concat.
Open Scope Z_scope.

(** ** Without panic, from good states to good states *)
Section Calm.
Context {S : Type}.
Variable Inv : S -> Prop.

Definition kc {A} (o : outcome (A * S)) : Prop :=
  match o with Ok (_, s) => Inv s | Panic => False | OutOfFuel => True end.
Lemma kc_bind : forall A B (o : outcome (A * S)) (k : A * S -> outcome (B * S)),
  kc o -> (forall a s, Inv s -> kc (k (a, s))) -> kc (obind o k).
Proof. intros A B [[a s]| |] k H K; cbn in *; [apply K, H|exact H|exact I]. Qed.

Variable R : rproto S.
Record calmI : Prop := MkCalmI {
  i_msg : forall s, Inv s -> kc (rMessageBegin R s); i_msgend : forall s, Inv s -> kc (rMessageEnd R s);
  i_struct : forall s, Inv s -> kc (rStructBegin R s); i_structend : forall s, Inv s -> kc (rStructEnd R s);
  i_field : forall s, Inv s -> kc (rFieldBegin R s); i_fieldend : forall s, Inv s -> kc (rFieldEnd R s);
  i_map : forall s, Inv s -> kc (rMapBegin R s); i_mapend : forall s, Inv s -> kc (rMapEnd R s);
  i_list : forall s, Inv s -> kc (rListBegin R s); i_listend : forall s, Inv s -> kc (rListEnd R s);
  i_set : forall s, Inv s -> kc (rSetBegin R s); i_setend : forall s, Inv s -> kc (rSetEnd R s);
  i_bool : forall s, Inv s -> kc (rBool R s); i_byte : forall s, Inv s -> kc (rByte R s);
  i_i16 : forall s, Inv s -> kc (rI16 R s); i_i32 : forall s, Inv s -> kc (rI32 R s);
  i_i64 : forall s, Inv s -> kc (rI64 R s); i_double : forall s, Inv s -> kc (rDouble R s);
  i_string : forall s, Inv s -> kc (rString R s); i_binary : forall s, Inv s -> kc (rBinary R s) }.
Hypothesis K : calmI.
Variable M : Z.

Ltac ib := apply kc_bind; [|intros].
Definition kcs (o : outcome S) : Prop := match o with Ok s => Inv s | Panic => False | OutOfFuel => True end.
Lemma kcs_bind : forall B (o : outcome S) (k : S -> outcome (B * S)),
  kcs o -> (forall s, Inv s -> kc (k s)) -> kc (obind o k).
Proof. intros B [s| |] k H Kk; cbn in *; [apply Kk, H|exact H|exact I]. Qed.
Lemma kcs_of : forall A (o : outcome (A * S)) (k : A * S -> outcome S),
  kc o -> (forall a s, Inv s -> kcs (k (a, s))) -> kcs (obind o k).
Proof. intros A [[a s]| |] k H Kk; cbn in *; [apply Kk, H|exact H|exact I]. Qed.
Lemma kc_repeat : forall (body : wop S), (forall s, Inv s -> kc (body s)) -> forall n s, Inv s -> kcs (repeat_ignoring n body s).
Proof.
  intros body Bd. induction n as [|n IH]; intros s Hs; cbn [repeat_ignoring]; [exact Hs|].
  specialize (Bd s Hs). destruct (body s) as [[e s1]| |]; cbn in *; [apply IH, Bd|exact Bd|exact I].
Qed.
Lemma kc_skip : forall f, (forall t d s, Inv s -> kc (skip R M f t d s)) /\ (forall d s, Inv s -> kcs (skip_fields R M f d s)).
Proof.
  destruct K. induction f as [|f [IH IHf]]; [split; intros; exact I|]. split; intros.
  - cbn [skip].
    repeat match goal with |- kc (if ?c then _ else _) => destruct c end; try assumption.
    all: ib; [auto|].
    all: try (destruct a as [v e]; assumption).
    + destruct a as [v [e|]]; [assumption|]. apply kcs_bind; [apply IHf; assumption|auto].
    + destruct a as [[[k v] n] [e|]]; [assumption|]. apply kcs_bind; [|auto].
      apply kc_repeat; [|assumption]. intros s2 H2. ib; [apply IH, H2|]. apply IH. assumption.
    + destruct a as [[t0 n] [e|]]; [assumption|]. apply kcs_bind; [|auto]. apply kc_repeat; [|assumption]. intros. apply IH. assumption.
    + destruct a as [[t0 n] [e|]]; [assumption|]. apply kcs_bind; [|auto]. apply kc_repeat; [|assumption]. intros. apply IH. assumption.
  - cbn [skip_fields]. apply kcs_of; [auto|]. intros [[[nm t] i] e] s1 H1.
    destruct (t =? STOP); [assumption|]. apply kcs_of; [apply IH; assumption|]. intros. apply kcs_of; [auto|].
    intros. apply IHf. assumption.
Qed.

(** Types without containers, down to the members of structs. *)
Inductive flat : ty -> Prop :=
| fl_bool : flat TyBool | fl_byte : flat TyByte | fl_i16 : flat TyI16 | fl_i32 : flat TyI32
| fl_i64 : flat TyI64 | fl_double : flat TyDouble | fl_string : flat TyString | fl_binary : flat TyBinary
| fl_enum tag n cs : flat (TyEnum tag n cs)
| fl_struct n ms : (forall m, In m ms -> flat (m_ty m)) -> flat (TyStruct n ms).

Variable x : ext.
Variable cf : nat.
Lemma kc_h : forall A B (m : hop S A) (k : A -> hop S B) s,
  kc (m s) -> (forall a s, Inv s -> kc (k a s)) -> kc (hbind m k s).
Proof.
  intros A B m k s Hm Hk. unfold hbind. ib; [apply Hm|]. destruct a as [a|e]; [apply Hk|]; assumption.
Qed.
Lemma kc_wrap : forall A (m : hop S A) s, kc (m s) -> kc (hwrap m s).
Proof. intros A m s H. unfold hwrap. ib; [apply H|]. destruct a; assumption. Qed.
Lemma kc_lift : forall A (m : rop S A) s, kc (m s) -> kc (hlift m s).
Proof. intros A m s H. unfold hlift. ib; [apply H|]. destruct a as [a [e|]]; assumption. Qed.
Lemma kc_do : forall (m : wop S) s, kc (m s) -> kc (hdo m s).
Proof. intros m s H. unfold hdo. ib; [apply H|]. destruct a; assumption. Qed.
Lemma kc_ret : forall A (a : A) s, Inv s -> kc (@hret S A a s).
Proof. intros. assumption. Qed.
Ltac kh := repeat first [ apply kc_ret; assumption | apply kc_h; intros | apply kc_wrap | apply kc_lift
  | apply kc_do | apply (proj1 (kc_skip _)); assumption | solve [auto] ].

Lemma kc_gread : forall f,
  (forall t, flat t -> forall s, Inv s -> kc (gread R x M cf f t s)) /\
  (forall ms, (forall m, In m ms -> flat (m_ty m)) -> forall a s, Inv s -> kc (gread_fields R x M cf f ms a s)).
Proof.
  pose proof kc_skip as KS. destruct K. induction f as [|f [IH IHf]]; [split; intros; exact I|]. split.
  - intros t P. inversion P; subst; intros s Hs; cbn [gread]; kh.
  - intros ms P a s Hs. cbn [gread_fields]. apply kc_h; [kh|]. intros [[nm t0] i] s1 H1. cbv zeta.
    match goal with |- kc ((if ?c then _ else _) _) => destruct c end; [apply kc_ret, H1|].
    apply kc_h; [|intros; apply kc_h; [kh|intros; apply IHf; assumption]].
    destruct (find _ _) as [m|] eqn:Ef; [|kh].
    apply find_some in Ef. destruct Ef as [Hm _].
    match goal with |- kc ((if ?c then _ else _) _) => destruct c end; kh.
Qed.
End Calm.

Lemma kc_ret_ok : forall A (m : rop jr A) s, ret True m -> SI True s -> kc (SI True) (m s).
Proof. intros A m s H Hs. destruct (H s Hs) as (a & e & s' & E & H' & _). rewrite E. exact H'. Qed.
Lemma calm_json : forall J, calmI (SI True) (jsonR J) /\ calmI (SI True) (simpleR J).
Proof.
  intro J.
  assert (U : forall (m : wop jr) s, ret True (fun s => '(e, s') <- m s ;; Ok (tt, e, s')) -> SI True s -> kc (SI True) (m s)).
  { intros m s H Hs. destruct (H s Hs) as (a & e & s' & E & H' & _). destruct (m s) as [[e0 s0]| |]; try discriminate.
    cbn in E. injection E as <- <- <-. exact H'. }
  assert (C : forall A (c : rcall A), ~ is_skip c -> ret True (ReadProg.call (jsonR J) c) /\ ret True (ReadProg.call (simpleR J) c)).
  { intros A c H. apply json_calls_ret; [exact H|auto]. }
  split; constructor; intros s Hs.
  all: first [ apply kc_ret_ok; [|assumption] | apply U; [|assumption] ].
  all: first [ exact (proj1 (C _ ReadProg.CMessageBegin (fun f => f))) | exact (proj1 (C _ ReadProg.CMessageEnd (fun f => f)))
    | exact (proj1 (C _ ReadProg.CStructBegin (fun f => f))) | exact (proj1 (C _ ReadProg.CStructEnd (fun f => f)))
    | exact (proj1 (C _ ReadProg.CFieldBegin (fun f => f))) | exact (proj1 (C _ ReadProg.CFieldEnd (fun f => f)))
    | exact (proj1 (C _ ReadProg.CMapBegin (fun f => f))) | exact (proj1 (C _ ReadProg.CListBegin (fun f => f)))
    | exact (proj1 (C _ ReadProg.CListEnd (fun f => f))) | exact (proj1 (C _ ReadProg.CBool (fun f => f)))
    | exact (proj1 (C _ ReadProg.CByte (fun f => f))) | exact (proj1 (C _ ReadProg.CI16 (fun f => f)))
    | exact (proj1 (C _ ReadProg.CI32 (fun f => f))) | exact (proj1 (C _ ReadProg.CI64 (fun f => f)))
    | exact (proj1 (C _ ReadProg.CDouble (fun f => f))) | exact (proj1 (C _ ReadProg.CString (fun f => f)))
    | exact (proj1 (C _ ReadProg.CBinary (fun f => f)))
    | exact (proj2 (C _ ReadProg.CMessageBegin (fun f => f))) | exact (proj2 (C _ ReadProg.CMessageEnd (fun f => f)))
    | exact (proj2 (C _ ReadProg.CStructBegin (fun f => f))) | exact (proj2 (C _ ReadProg.CStructEnd (fun f => f)))
    | exact (proj2 (C _ ReadProg.CFieldBegin (fun f => f))) | exact (proj2 (C _ ReadProg.CFieldEnd (fun f => f)))
    | exact (proj2 (C _ ReadProg.CMapBegin (fun f => f))) | exact (proj2 (C _ ReadProg.CMapEnd (fun f => f)))
    | exact (proj2 (C _ ReadProg.CListBegin (fun f => f))) | exact (proj2 (C _ ReadProg.CListEnd (fun f => f)))
    | exact (proj2 (C _ ReadProg.CSetBegin (fun f => f))) | exact (proj2 (C _ ReadProg.CSetEnd (fun f => f))) ].
Qed.

(** ** Writing an exception *)

(** Whatever its message and its number are. *)
Lemma jow_exc_any : forall J e s o, True -> jow' s o ->
  exists s', app_write (jsonW J) e s = Ok (None, s') /\ jow' s' (o ++ jenc J (VStruct (exc_fields e))).
Proof.
  intros J e s o _ ->. eexists. split; [|reflexivity].
  assert (F : forall nm t i (val : wop jw) v c l, is_key c = true -> in_s 16 i ->
    (forall l, emits val (NextValue :: l) (58 :: vtext J v) (NextKey :: l)) -> t = vtype v ->
    emits (wFieldBegin (jsonW J) nm t i >>> val >>> wFieldEnd (jsonW J)) (c :: l) (sep c ++ field_text J (i, v)) (NextKey :: l)).
  { intros nm t i val v c l Kc Hi Hv ->.
    assert (Ka : after_value c = NextValue) by (destruct c; try discriminate Kc; reflexivity).
    change (wFieldBegin (jsonW J) nm (vtype v) i) with
      (OutputI64 J i >>> OutputObjectBegin >>> OutputString J (TypeIdToString (vtype v))).
    change (wFieldEnd (jsonW J)) with OutputObjectEnd.
    eapply emits_eq.
    - eapply emits_seq.
      + eapply emits_seq; [apply emits_i64|]. rewrite Ka.
        eapply emits_seq; [apply emits_obj_begin|apply emits_str].
      + cbn [after_value]. eapply emits_seq; [apply Hv|apply emits_obj_end].
    - unfold field_text, key_quote, type_text. rewrite Kc. cbn [fst snd sep].
      rewrite !json_quote_plain; [|apply type_plain|apply format_plain, (in_s_64 16); [lia|assumption]].
      now rewrite <- !app_assoc. }
  assert (T : forall c l, is_key c = true -> emits
    (wFieldBegin (jsonW J) s_type I32 2 >>> wI32 (jsonW J) (x_type e) >>> wFieldEnd (jsonW J) >>>
     wFieldStop (jsonW J) >>> wStructEnd (jsonW J)) (c :: InList :: l)
    (sep c ++ field_text J (2, VI32 (x_type e)) ++ [125]) (InList :: l)).
  { intros c l Kc o1.
    assert (E := F s_type I32 2 (wI32 (jsonW J) (x_type e)) (VI32 (x_type e)) c (InList :: l) Kc ltac:(unfold in_s; cbn; lia)
      (fun l => emits_i64 J (x_type e) NextValue l) eq_refl).
    assert (E2 := emits_obj_end NextKey InList l).
    assert (Q : forall (a b c d : wop jw) s s1, (a >>> b >>> c) s = Ok (None, s1) -> (a >>> b >>> c >>> d) s = d s1).
    { clear. intros a b c d s s1 H. unfold wseq in *.
      destruct (a s) as [[[ea|] sa]| |]; cbn [obind] in *; try discriminate H.
      destruct (b sa) as [[[eb|] sb]| |]; cbn [obind] in *; try discriminate H.
      destruct (c sb) as [[[ec|] sc]| |]; cbn [obind] in *; try discriminate H. injection H as <-. reflexivity. }
    rewrite (Q _ _ _ _ _ _ (E o1)). unfold wseq at 1. change (wFieldStop (jsonW J)) with (@nop jw). cbn [nop obind].
    change (wStructEnd (jsonW J)) with OutputObjectEnd. rewrite (E2 _). now rewrite !app_assoc. }
  assert (G : emits (app_write (jsonW J) e) (InList :: [TopLevel; TopLevel]) (jenc J (VStruct (exc_fields e))) (InList :: [TopLevel; TopLevel])).
  { intro o1. unfold app_write. change (wStructBegin (jsonW J) s_tapp) with OutputObjectBegin.
    rewrite (emits_obj_begin InList [TopLevel; TopLevel] o1). cbn [obind].
    destruct e as [ty m]. unfold exc_fields. cbn [x_msg x_type] in *. destruct m as [|m0 m].
    - unfold wseq at 1. cbn [nop obind]. rewrite (T ObjFirst [TopLevel; TopLevel] eq_refl).
      do 4 f_equal. unfold jenc. cbn [sep vtext app flat_map tl fst snd]. rewrite <- !app_assoc. reflexivity.
    - assert (E := F s_message STRING 1 (wString (jsonW J) (m0 :: m)) (VStr (m0 :: m)) ObjFirst [InList; TopLevel; TopLevel]
        eq_refl ltac:(unfold in_s; cbn; lia) (fun l => emits_str J (m0 :: m) NextValue l) eq_refl).
      unfold wseq at 1. rewrite (E _). cbn [obind]. rewrite (T NextKey [TopLevel; TopLevel] eq_refl).
      do 4 f_equal. unfold jenc, field_text. cbn [sep vtext app flat_map tl fst snd].
      repeat (progress (cbn [app]; rewrite <- ?app_assoc)). reflexivity. }
  apply G.
Qed.

(** ** C119 over the JSON protocols *)

(** The reader generated for a type without containers panics on no input over TJSONProtocol or TSimpleJSONProtocol, as
    long as the transport reports no error together with data.  Binary is no danger here. *)
Theorem C119_json_read : forall J t, flat t -> forall x M cf f (r : rt), clean r ->
  gread (jsonR J) x M cf f t (json_r r) <> Panic /\ gread (simpleR J) x M cf f t (simple_r r) <> Panic.
Proof.
  intros J t P x M cf f r C. destruct (fresh_SI True r (fun _ => C)) as (S1 & S2 & _).
  destruct (calm_json J) as [K1 K2].
  pose proof (proj1 (kc_gread _ _ K1 M x cf f) t P _ S2) as Q1. pose proof (proj1 (kc_gread _ _ K2 M x cf f) t P _ S1) as Q2.
  split; intro E; [rewrite E in Q1; exact Q1|rewrite E in Q2; exact Q2].
Qed.
Print Assumptions C119_json_read.

Definition pcalm {H SR SW} (Inv : SR -> Prop) (o : outcome (@pout SR SW H)) : Prop :=
  match o with Ok p => Inv (p_in p) | Panic => False | OutOfFuel => True end.
Lemma kc_process : forall SR H (R : rproto SR) Inv J x M cf fuel errtext
    (handle : H -> bytes -> list any -> (list (Z * any) * option bytes) * H) fs h si o,
  calmI Inv R -> Inv si -> (forall f, In f fs -> func_ok f) -> (forall f m, In f fs -> In m (fn_args f) -> flat (m_ty m)) ->
  results_ok x fuel handle false true fs ->
  pcalm Inv (process R (jsonW J) nop x M cf fuel errtext handle fs h si (json_w (MkWt o []))).
Proof.
  intros SR H R Inv J x M cf fuel errtext handle fs h si o K Hsi Fok Pl Rok.
  assert (Ex : forall name seq e, exists so', write_exception (jsonW J) nop name seq e (json_w (MkWt o [])) = Ok so').
  { intros name seq e. destruct (write_exception_ok (jsonW J) nop jow jow' (jenc J) (message_text J) [93]
      (fun _ _ => True) (fun _ => True) (jow_exc_any J)
      (fun name t seq s o Ht _ => jow_msg J name t seq s o Ht I) (jow_end J) jow_nop
      name seq e (json_w (MkWt o [])) o I I eq_refl) as (so' & E4 & _). exists so'. exact E4. }
  pose proof (i_msg _ _ K) as Km. pose proof (i_msgend _ _ K) as Ke.
  assert (PB : forall A (o : outcome (A * SR)) (k : A * SR -> outcome (@pout SR jw H)),
    kc Inv o -> (forall a s, Inv s -> pcalm Inv (k (a, s))) -> pcalm Inv (obind o k)).
  { intros A [[a s]| |] k Ho Hk; cbn in *; [apply Hk, Ho|exact Ho|exact I]. }
  unfold process. apply PB; [apply Km, Hsi|]. intros [[[name t] seq] [e|]] s1 H1; [exact H1|].
  destruct (lookup_fn fs name) as [f|] eqn:L.
  - apply lookup_in in L. destruct L as [Hf <-]. unfold process_fn.
    apply PB; [apply (proj1 (kc_gread Inv R K M x cf fuel)); [constructor; intros m Hm; eapply Pl; eassumption|exact H1]|].
    intros [args|e] s2 H2.
    + apply PB; [apply Ke, H2|]. intros e2 s3 H3.
      match goal with |- context [handle h (fn_name f) ?v] => set (vals := v) end.
      destruct (handle h (fn_name f) vals) as [[attrs [text|]] h'] eqn:Eh.
      * match goal with |- context [write_exception _ _ ?n ?s ?e] => destruct (Ex n s e) as (so' & ->) end. exact H3.
      * pose proof (Rok f h vals attrs h' Hf Eh) as Rk.
        destruct (jow_msg J (fn_name f) REPLY seq (json_w (MkWt o [])) o ltac:(auto) I eq_refl) as (o1 & E1 & J1). rewrite E1. cbn [obind].
        assert (Hr : exists o2 b, gwrite_result (jsonW J) x fuel (result_name f) (result_members f)
                  (if fn_oneway f then init_attrs (result_members f) else attrs) o1 = Ok (None, o2) /\ jow' o2 b).
        { destruct (fn_oneway f) eqn:One.
          - destruct (empty_result_ok (jsonW J) nop (fun s => s) x M fuel handle false true jow jow' (fun _ : rt => fun _ => True) (fun _ _ => True) (jenc J)
              (message_text J) [93] (fun _ _ => True) (fun _ => True) func_ok (fun _ => True)
              (jow_val J) (jow_exc_any J) (fun name t seq s o Ht _ => jow_msg J name t seq s o Ht I) (jow_end J) jow_nop f (result_name f)
              (init_attrs (result_members f)) o1 _ (Fok f Hf) One Rk J1) as (o2 & G & G'). eauto.
          - destruct Rk as (Nb & rf & Hr & Nf).
            destruct (write_result_ok (jsonW J) nop (fun s => s) x M fuel handle false true jow jow' (fun _ : rt => fun _ => True) (fun _ _ => True) (jenc J)
              (message_text J) [93] (fun _ _ => True) (fun _ => True) func_ok (fun _ => True)
              (jow_val J) (jow_exc_any J) (fun name t seq s o Ht _ => jow_msg J name t seq s o Ht I) (jow_end J) jow_nop f attrs rf (result_name f) o1 _
              (Fok f Hf) Hr Nb Nf J1) as (o2 & G & G'). eauto. }
        destruct Hr as (o2 & b & E2 & J2). rewrite E2. cbn [obind].
        destruct (jow_end J o2 b J2) as (o3 & E3 & _). rewrite E3. exact H3.
    + apply PB; [apply Ke, H2|]. intros e2 s3 H3.
      match goal with |- context [write_exception _ _ ?n ?s ?e] => destruct (Ex n s e) as (so' & ->) end. exact H3.
  - apply PB; [apply (proj1 (kc_skip Inv R K M fuel)), H1|]. intros e2 s2 H2.
    apply PB; [apply Ke, H2|]. intros e3 s3 H3.
    match goal with |- context [write_exception _ _ ?n ?s ?e] => destruct (Ex n s e) as (so' & ->) end. exact H3.
Qed.

(** A server of a service none of whose functions takes a container and none of whose results has a binary, over
    TJSONProtocol, panics on no input that comes without errors together with data: any bytes, in any pieces, for any
    number of rounds and any time of Stop. *)
Theorem C119_json_server : forall H J x M cf fuel errtext
    (handle : H -> bytes -> list any -> (list (Z * any) * option bytes) * H) fs stopped rounds h (r : rt),
  (forall f, In f fs -> func_ok f) -> (forall f m, In f fs -> In m (fn_args f) -> flat (m_ty m)) ->
  (forall f h vals attrs h', In f fs -> handle h (fn_name f) vals = ((attrs, None), h') ->
     if fn_oneway f then (2 <= fuel)%nat
     else (forall m, In m (result_members f) -> no_binary (m_ty m)) /\
          exists rf, reply x f attrs rf /\ (need (VStruct rf) <= fuel)%nat) ->
  clean r ->
  serve_loop x M cf fuel errtext handle fs stopped (jsonR J) (jsonW J) nop rounds 0 h (json_r r) (json_w (MkWt [] [])) <> Panic.
Proof.
  intros H J x M cf fuel errtext handle fs stopped rounds h r Fok Pl Rok C.
  destruct (fresh_SI True r (fun _ => C)) as (_ & S2 & _). destruct (calm_json J) as [K _].
  assert (R1 : results_ok x fuel handle false true fs).
  { intros f h0 vals attrs h' Hf Eh. specialize (Rok f h0 vals attrs h' Hf Eh).
    destruct (fn_oneway f); [exact Rok|]. split; [|apply Rok]. intros m Hm _. apply Rok, Hm. }
  assert (L : forall rounds n h si o, SI True si ->
    serve_loop x M cf fuel errtext handle fs stopped (jsonR J) (jsonW J) nop rounds n h si (json_w (MkWt o [])) <> Panic).
  { clear rounds h S2. induction rounds as [|rounds IH]; intros n h si o Hs; [discriminate|].
    pose proof (kc_process _ H (jsonR J) (SI True) J x M cf fuel errtext handle fs h si o K Hs Fok Pl R1) as Q.
    cbn [serve_loop].
    destruct (process (jsonR J) (jsonW J) nop x M cf fuel errtext handle fs h si (json_w (MkWt o []))) as [p| |] eqn:P;
      [|destruct Q|discriminate]. cbn [pcalm obind] in *.
    pose proof (process_once (jsonR J) (jsonW J) nop (fun s => s) x M cf fuel errtext handle false true
      jow jow' (fun _ _ => True) (fun _ _ => True) (jenc J) (message_text J) [93] (fun _ _ => True) (fun _ => True) func_ok (fun _ => True)
      (jow_val J) (jow_exc_any J) (fun name t seq s o Ht _ => jow_msg J name t seq s o Ht I) (jow_end J) jow_nop
      fs h si (json_w (MkWt o [])) o p Fok R1 ltac:(repeat split) eq_refl P) as O.
    destruct (ends (stopped n) p) eqn:En; [discriminate|].
    destruct (rMessageBegin (jsonR J) si) as [[[[[name t] seq] [e|]] s1]| |]; try contradiction.
    - destruct O as (O1 & O2 & O3 & O4). rewrite O4. apply IH, Q.
    - destruct (O I) as (mt & body & A & B). red in B. rewrite B. apply IH, Q. }
  apply L, S2.
Qed.
Print Assumptions C119_json_server.

(** ** What makes the others panic *)

(** A text read as a value of the type. *)
Definition some_text (t : ty) : bytes := match t with TyStruct _ _ => lit "{}" | _ => lit "null" end.
(** Over TJSONProtocol every container can be made to panic: an element of type 99, or a key of type GENERIC. *)
Definition container_text (t : ty) : bytes :=
  match t with
  | TyList e | TySet e => lit "[99,1," ++ some_text e ++ lit "    ]"
  | TyMap k v => lit "[""gen"",""gen"",1," ++ some_text k ++ lit "," ++ some_text v ++ lit "    ]"
  | _ => []
  end.
Definition container (t : ty) : Prop :=
  match t with TyList _ | TySet _ | TyMap _ _ => True | _ => False end.
Theorem C119_json_containers : forall t, container t -> clean [(container_text t, None)] /\
  forall J x M cf f, gread (jsonR J) x M cf (3 + f) t (json_r [(container_text t, None)]) = Panic.
Proof.
  intros t Ct. split; [constructor; [right; reflexivity|constructor]|]. intros J x M cf f.
  destruct t as [| | | | | | | | |t|t|t1 t2|]; try destruct Ct; [destruct t|destruct t|destruct t1, t2]; vm_compute; reflexivity.
Qed.
Print Assumptions C119_json_containers.

(** With an error together with data no service is safe: a call of a method it does not have, with a bool that is cut
    off at the end of the buffer. *)
Definition long_name : bytes := repeat 120 4073.
Definition cut_bool : rt := [(lit "[1,""" ++ long_name ++ lit """,1,0,{""1"":{""tf"":tr", Some EEof)].
Theorem C119_json_refuted : forall SW H (W : wproto SW) flush J x M cf fuel errtext
    (handle : H -> bytes -> list any -> (list (Z * any) * option bytes) * H) fs h so,
  lookup_fn fs long_name = None ->
  process (jsonR J) W flush x M cf (4 + fuel) errtext handle fs h (json_r cut_bool) so = Panic.
Proof.
  intros SW H W flush J x M cf fuel errtext handle fs h so L. unfold process.
  assert (E : match rMessageBegin (jsonR J) (json_r cut_bool) with
    | Ok (nm, t, q, None, s) => nm = long_name /\ skip_default (jsonR J) M (4 + fuel) STRUCT s = Panic
    | _ => False end).
  { vm_compute. split; reflexivity. }
  destruct (rMessageBegin (jsonR J) (json_r cut_bool)) as [[[[[nm t] q] [e|]] s]| |]; try contradiction.
  destruct E as [-> E]. cbn [obind]. rewrite L, E. reflexivity.
Qed.
Print Assumptions C119_json_refuted.

(** ** The tutorial's service over TJSONProtocol *)

Lemma calculator_flat : forall f m, In f calculator -> In m (fn_args f) -> flat (m_ty m).
Proof.
  intros f m Hf Hm. repeat (destruct Hf as [<-|Hf]; [cbn in Hm; repeat (destruct Hm as [<-|Hm]; [cbn; constructor|]); try destruct Hm|]);
    try destruct Hf.
  intros m Hm. repeat (destruct Hm as [<-|Hm]; [cbn; constructor|]). destruct Hm.
Qed.
Theorem C119_json_tutorial : forall J x M cf fuel errtext stopped rounds p (r : rt),
  orders x -> (8 <= fuel)%nat -> clean r ->
  serve_loop x M cf fuel errtext safe_handle calculator stopped (jsonR J) (jsonW J) nop rounds 0 p (json_r r)
    (json_w (MkWt [] [])) <> Panic.
Proof.
  intros J x M cf fuel errtext stopped rounds p r Ox Hfu C.
  apply C119_json_server; [apply calculator_ok|apply calculator_flat| |exact C].
  intros f h vals attrs h' Hf E. pose proof (safe_replies x fuel f h vals attrs h' Ox Hfu Hf E) as Sr.
  destruct (fn_oneway f) eqn:One; [exact Sr|]. split; [|exact Sr].
  clear - Hf. repeat (destruct Hf as [<-|Hf]; [intros m Hm; cbn in Hm; repeat (destruct Hm as [<-|Hm]; [cbn; repeat constructor|]); try destruct Hm|]);
    try destruct Hf.
  all: intros m Hm; cbn in Hm; repeat (destruct Hm as [<-|Hm]; [cbn; repeat constructor|]); try destruct Hm.
Qed.
Print Assumptions C119_json_tutorial.

(** Hypotheses of the theorems above; a request of the calculator with garbage in it. *)
Definition J1 : jenv := MkJenv ext0 st10.
Example C119_json_case :
  flat (TyStruct [113] [Mem 3 [97] false None TyBinary]) /\ ~ flat (TyList TyI32) /\ container (TyMap TyI32 (TyList TyBool)) /\
  orders ext0 /\ lookup_fn calculator long_name = None /\
  (let r := [(lit "[1,""add"",1,7,{""1"":{""i32"":tr}", None); ([], Some EEof)] in
   clean r /\
   exists h s, serve_loop ext0 64 5 40 (fun _ => lit "err") safe_handle calculator (fun _ => false) (jsonR J1) (jsonW J1) nop 3 0
     [] (json_r r) (json_w (MkWt [] [])) =
       Ok (h, s, json_w (MkWt (jmsg J1 (lit "add") EXCEPTION 7 (VStruct (exc_fields (MkExc PROTOCOL_ERROR (lit "err"))))) []))).
Proof.
  split; [constructor; intros m [<-|[]]; constructor|].
  split; [intro F; inversion F|]. split; [exact I|]. split; [exact ext0_orders|]. split; [vm_compute; reflexivity|].
  split; [constructor; [right; reflexivity|constructor; [left; reflexivity|constructor]]|]. eexists _, _. vm_compute. reflexivity.
Qed.
