(** Generated clients and processors over any protocol that can carry values and messages. *)
From Coq Require Import ZArith List Bool Lia Permutation Sorting.Sorted.
From Coq Require Import ZifyBool ZifyNat.
From Verif Require Import Base Errors Transport Proto Skip Arith Values SkipProofs BinaryProofs CompactSpec.
From Verif Require Import TField GoVal Compare TMap Gen GenSpec GenProofs GenInst GenRound AppExc AppExcProofs Rpc.
Import ListNotations.
Open Scope Z_scope.

(** ** Specification *)

(** Functions as the IDL compiler lets them through: distinct argument and result members,
    exceptions of struct type and not numbered 0, oneway functions without results. *)
Definition func_ok (f : func) : Prop :=
  schema_ok (TyStruct (args_name f) (fn_args f)) /\
  schema_ok (TyStruct (result_name f) (result_members f)) /\
  (forall m, In m (fn_exc f) -> m_id m <> 0 /\ exists n ms, m_ty m = TyStruct n ms) /\
  (fn_oneway f = true -> fn_ret f = None /\ fn_exc f = []) /\
  is_bytes (fn_name f) /\ Z.of_nat (length (fn_name f)) < 2 ^ 31.

(** A value that stands for no value: nil, or an enum never set. *)
Definition absent (t : ty) (v : any) : Prop :=
  (can_be_nil t = true /\ v = ANil) \/
  (exists tag n cs, t = TyEnum tag n cs /\ v = mk_enum tag n cs enum_unset).

(** The fields a reply with the handler's results [attrs] should have: of the exceptions that
    are there the one with the greatest id, otherwise the value. *)
Definition thrown (f : func) (attrs : list (Z * any)) (m : member) : Prop :=
  In m (fn_exc f) /\ attribute attrs (m_id m) <> ANil.
Inductive reply (x : ext) (f : func) (attrs : list (Z * any)) : list (Z * tval) -> Prop :=
| rp_exc m w : thrown f attrs m -> (forall n, thrown f attrs n -> m_id n <= m_id m) ->
    wireof x (m_ty m) (attribute attrs (m_id m)) w -> reply x f attrs [(m_id m, w)]
| rp_val t w : (forall n, ~ thrown f attrs n) -> fn_ret f = Some t ->
    wireof x t (attribute attrs 0) w -> reply x f attrs [(0, w)]
| rp_none t : (forall n, ~ thrown f attrs n) -> fn_ret f = Some t ->
    absent t (attribute attrs 0) -> reply x f attrs []
| rp_void : (forall n, ~ thrown f attrs n) -> fn_ret f = None -> reply x f attrs [].

(** The member of the result a reply is about. *)
Definition chosen (f : func) (attrs : list (Z * any)) (m : member) : Prop :=
  (thrown f attrs m /\ forall n, thrown f attrs n -> m_id n <= m_id m) \/
  ((forall n, ~ thrown f attrs n) /\ exists t, fn_ret f = Some t /\ m = Mem 0 s_success false None t).
(** What the caller gets when the handler returned [attrs]: that member's value; the other
    members are as in a new result. *)
Definition returned (f : func) (attrs attrs' : list (Z * any)) : Prop :=
  map fst attrs' = map m_id (result_members f) /\
  (forall m, chosen f attrs m -> same (attribute attrs (m_id m)) (attribute attrs' (m_id m))) /\
  (forall m, In m (result_members f) -> ~ chosen f attrs m -> attribute attrs' (m_id m) = m_init m).

(** What a caller gets for a call of [f] with [args] when the handler is in state [h]. *)
Section Served.
Context {H : Type}.
Variable handle : H -> bytes -> list any -> (list (Z * any) * option bytes) * H.
Inductive served (f : func) (args : list any) (h : H) : cres -> H -> Prop :=
| sv_value vals attrs h' attrs' : Forall2 same args vals ->
    handle h (fn_name f) vals = ((attrs, None), h') -> returned f attrs attrs' ->
    served f args h (attrs', None) h'
| sv_failed vals attrs text h' : Forall2 same args vals ->
    handle h (fn_name f) vals = ((attrs, Some text), h') ->
    served f args h
      (zero_attrs (result_members f),
       Some (RApp (MkExc INTERNAL_ERROR (s_internal ++ fn_name f ++ s_colon ++ text)))) h'.
Inductive serves : list (func * list any) -> H -> list cres -> H -> Prop :=
| ss_nil h : serves [] h [] h
| ss_cons f args l h r h1 rs h2 : served f args h r h1 -> serves l h1 rs h2 ->
    serves ((f, args) :: l) h (r :: rs) h2.
End Served.

(** What a processor may answer to a message named [name], from handler state [h]: type and body
    of the message, handler state afterwards, success. *)
Section Answered.
Context {H : Type}.
Variable x : ext.
Variable errtext : err -> bytes.
Variable handle : H -> bytes -> list any -> (list (Z * any) * option bytes) * H.
Inductive answered (fs : list func) (h : H) (name : bytes)
  : Z -> list (Z * tval) -> H -> bool -> Prop :=
| an_unknown : (forall f, In f fs -> fn_name f <> name) ->
    answered fs h name EXCEPTION (exc_fields (MkExc UNKNOWN_METHOD (s_unknown ++ name))) h false
| an_malformed f e : In f fs -> fn_name f = name ->
    answered fs h name EXCEPTION (exc_fields (MkExc PROTOCOL_ERROR (errtext e))) h false
| an_failed f vals attrs text h' : In f fs -> fn_name f = name -> length vals = length (fn_args f) ->
    handle h name vals = ((attrs, Some text), h') ->
    answered fs h name EXCEPTION
      (exc_fields (MkExc INTERNAL_ERROR (s_internal ++ name ++ s_colon ++ text))) h' false
| an_reply f vals attrs h' rf : In f fs -> fn_name f = name -> length vals = length (fn_args f) ->
    handle h name vals = ((attrs, None), h') ->
    (if fn_oneway f then rf = [] else reply x f attrs rf) ->
    answered fs h name REPLY rf h' true.
End Answered.

(** ** The member a result struct writes *)

Lemma insert_sorted : forall m l, StronglySorted (fun a b => m_id a <= m_id b) l ->
  StronglySorted (fun a b => m_id a <= m_id b) (insert_m m l).
Proof.
  induction l as [|n l IH]; intro H; cbn [insert_m]; [repeat constructor|].
  inversion H as [|? ? H1 H2]; subst. destruct (m_id m <? m_id n) eqn:E.
  - constructor; [exact H|]. constructor; [lia|]. eapply Forall_impl; [|exact H2]. cbn. intros; lia.
  - constructor; [apply IH, H1|]. rewrite Forall_forall in *. intros k Hk.
    apply in_insert_m in Hk. destruct Hk as [->|Hk]; [lia|apply H2, Hk].
Qed.
Lemma sorted_sorted : forall ms, StronglySorted (fun a b => m_id a <= m_id b) (sorted_members ms).
Proof. induction ms as [|m ms IH]; cbn [sorted_members]; [constructor|apply insert_sorted, IH]. Qed.
Lemma find_rev_max : forall P l, StronglySorted (fun a b => m_id a <= m_id b) l ->
  forall m, find P (rev l) = Some m -> forall n, In n l -> P n = true -> m_id n <= m_id m.
Proof.
  intros P l. induction 1 as [|a l Hs IH Ha]; intros m Hf n Hn Pn; [destruct Hn|].
  cbn [rev] in Hf. assert (Fa : forall l1 l2, find P (l1 ++ l2) =
    match find P l1 with Some k => Some k | None => find P l2 end).
  { clear. induction l1 as [|b l1 IH]; intro l2; [reflexivity|]. cbn [app find].
    destruct (P b); [reflexivity|apply IH]. }
  rewrite Fa in Hf. destruct (find P (rev l)) as [k|] eqn:E.
  - injection Hf; intros; subst k. destruct Hn as [<-|Hn]; [|apply IH; auto].
    apply find_some in E. destruct E as [E _]. rewrite <- in_rev in E.
    rewrite Forall_forall in Ha. apply Ha, E.
  - destruct Hn as [<-|Hn].
    + cbn [find] in Hf. rewrite Pn in Hf. injection Hf; intros; subst. lia.
    + pose proof (find_none _ _ E n). rewrite H in Pn; [discriminate|]. rewrite <- in_rev. exact Hn.
Qed.

Definition isx (m : member) : bool := can_be_nil (m_ty m) && negb (m_id m =? 0).
Lemma pick_find : forall attrs l d, result_pick attrs d l =
  match find (fun m => isx m && negb (is_nil (attribute attrs (m_id m)))) l with
  | Some m => Some m
  | None => match d with Some m => Some m | None => find (fun m => negb (isx m)) l end
  end.
Proof.
  intros attrs. induction l as [|m l IH]; intro d; cbn [result_pick find].
  - destruct d; reflexivity.
  - fold (isx m). destruct (isx m) eqn:E; cbn [andb negb].
    + destruct (is_nil _); cbn [negb]; [apply IH|reflexivity].
    + rewrite IH. destruct (find _ l); [reflexivity|]. destruct d; reflexivity.
Qed.
Lemma is_nil_iff : forall v, is_nil v = false <-> v <> ANil.
Proof. intros []; cbn; split; congruence. Qed.

Section Pick.
Variable f : func.
Hypothesis Fok : func_ok f.

Lemma in_result : forall m, In m (rev (sorted_members (result_members f))) <->
  (exists t, fn_ret f = Some t /\ m = Mem 0 s_success false None t) \/ In m (fn_exc f).
Proof.
  intros m. rewrite <- in_rev, in_sorted. unfold result_members. rewrite in_app_iff.
  destruct (fn_ret f) as [t|]; cbn [In].
  - split; [intros [[<-|[]]|Hm]; [left; eauto|right; exact Hm]|].
    intros [(t' & E & ->)|Hm]; [left; left; congruence|right; exact Hm].
  - split; [intros [[]|Hm]; right; exact Hm|]. intros [(t' & E & _)|Hm]; [discriminate|right; exact Hm].
Qed.
Lemma isx_exc : forall m, In m (fn_exc f) -> isx m = true.
Proof.
  intros m Hm. destruct Fok as (_ & _ & Hx & _). destruct (Hx m Hm) as (N & n & ms & E).
  unfold isx. rewrite E. cbn. lia.
Qed.

Lemma pick_none : forall attrs, (forall n, ~ thrown f attrs n) ->
  result_pick attrs None (rev (sorted_members (result_members f))) =
  match fn_ret f with Some t => Some (Mem 0 s_success false None t) | None => None end.
Proof.
  intros attrs Hn. rewrite pick_find.
  set (l := rev (sorted_members (result_members f))).
  assert (E : find (fun m => isx m && negb (is_nil (attribute attrs (m_id m)))) l = None).
  { destruct (find _ l) as [m|] eqn:E; [|reflexivity]. apply find_some in E. destruct E as [Hm E].
    apply andb_true_iff in E. destruct E as [E1 E2]. apply negb_true_iff, is_nil_iff in E2.
    apply in_result in Hm. destruct Hm as [(t & _ & ->)|Hm].
    - cbn in E1. unfold isx in E1. cbn [m_id] in E1. rewrite Z.eqb_refl in E1.
      rewrite andb_false_r in E1. discriminate.
    - destruct (Hn m). split; assumption. }
  rewrite E. destruct (find (fun m => negb (isx m)) l) as [m|] eqn:E2.
  - apply find_some in E2. destruct E2 as [Hm E2]. apply in_result in Hm.
    destruct Hm as [(t & -> & ->)|Hm]; [reflexivity|]. rewrite isx_exc in E2 by assumption. discriminate.
  - destruct (fn_ret f) as [t|] eqn:Er; [|reflexivity].
    assert (In (Mem 0 s_success false None t) l) as Hm by (apply in_result; left; eauto).
    pose proof (find_none _ _ E2 _ Hm) as E3. cbn beta in E3. unfold isx in E3. cbn [m_id] in E3.
    rewrite Z.eqb_refl, andb_false_r in E3. discriminate.
Qed.
Lemma pick_exc : forall attrs m, thrown f attrs m -> (forall n, thrown f attrs n -> m_id n <= m_id m) ->
  result_pick attrs None (rev (sorted_members (result_members f))) = Some m.
Proof.
  intros attrs m [Hm Nm] Hmax. rewrite pick_find.
  set (P := fun m => isx m && negb (is_nil (attribute attrs (m_id m)))).
  assert (Pm : P m = true).
  { unfold P. rewrite isx_exc by assumption. cbn. apply negb_true_iff, is_nil_iff, Nm. }
  assert (Im : In m (sorted_members (result_members f))) by (apply in_rev, in_result; right; assumption).
  destruct (find P (rev (sorted_members (result_members f)))) as [k|] eqn:E.
  - f_equal. pose proof (find_rev_max P _ (sorted_sorted _) k E m Im Pm) as L1.
    apply find_some in E. destruct E as [Hk E]. unfold P in E. apply andb_true_iff in E.
    destruct E as [E1 E2]. apply negb_true_iff, is_nil_iff in E2.
    apply in_result in Hk. destruct Hk as [(t & _ & ->)|Hk].
    { unfold isx in E1. cbn [m_id] in E1. rewrite Z.eqb_refl, andb_false_r in E1. discriminate. }
    specialize (Hmax k (conj Hk E2)). assert (Eid : m_id k = m_id m) by lia.
    destruct Fok as (_ & So & _). inversion So as [| | | | | | | | | | | |? ? Mok _]; subst.
    destruct Mok as [Nd _].
    assert (U : forall a b l, NoDup (map m_id l) -> In a l -> In b l -> m_id a = m_id b -> a = b).
    { clear. induction l as [|c l IH]; intros Nd Ha Hb E; [destruct Ha|]. inversion Nd; subst.
      destruct Ha as [->|Ha], Hb as [->|Hb]; auto.
      - destruct H1. rewrite E. apply in_map. exact Hb.
      - destruct H1. rewrite <- E. apply in_map. exact Ha. }
    apply (U k m _ Nd); [| |exact Eid]; unfold result_members; apply in_app_iff; right; assumption.
  - exfalso. pose proof (find_none _ _ E m) as Q. rewrite Q in Pm; [discriminate|]. apply -> in_rev. exact Im.
Qed.
End Pick.

(** ** Protocols that carry values and messages *)

Section Channel.
Context {SR SW H : Type}.
Variable R : rproto SR.
Variable W : wproto SW.
Variable flush : wop SW.
Variable freshR : SR -> SR.
Variable freshW : SW -> SW.
Variable x : ext.
Variable M : Z.
Variable cf fuel : nat.
Variable errtext : err -> bytes.
Variable handle : H -> bytes -> list any -> (list (Z * any) * option bytes) * H.
Variable bin binr ub : bool.

(** [ow s o]: the writer can write and what it wrote is [o].  [ir s b]: the reader can read and
    what there is to read is [b].  [ow'] and [ir']: the same within a message. *)
Variable ow ow' : SW -> bytes -> Prop.
Variable ir ir' : SR -> bytes -> Prop.
Variable enc : tval -> bytes.
Variable emsg : bytes -> Z -> Z -> bytes.
Variable eend : bytes.
Variable okm : bytes -> Z -> Prop.      (* names and sequence ids that can be written *)
Variable oke : appexc -> Prop.          (* exceptions that can be written *)
Variable okv : tval -> Prop.            (* values that can be read back *)
Variable okf : func -> Prop.            (* functions that can be called *)
Variable okrest : bytes -> Prop.        (* what may follow a message *)

Hypothesis w_val : forall v s o, wf v -> ow' s o -> exists s', wr bin W v s s' /\ ow' s' (o ++ enc v).
Hypothesis w_exc : forall e s o, oke e -> ow' s o ->
  exists s', app_write W e s = Ok (None, s') /\ ow' s' (o ++ enc (VStruct (exc_fields e))).
Hypothesis w_msg : forall name t seq s o, t = CALL \/ t = REPLY \/ t = EXCEPTION -> okm name seq ->
  ow s o -> exists s', wMessageBegin W name t seq s = Ok (None, s') /\ ow' s' (o ++ emsg name t seq).
Hypothesis w_end : forall s o, ow' s o -> exists s', wMessageEnd W s = Ok (None, s') /\ ow s' (o ++ eend).
Hypothesis w_flush : forall s o, ow s o -> exists s', flush s = Ok (None, s') /\ ow s' o.

Definition nb (t : ty) : Prop := bin && binr = false -> no_binary t.

Lemma write_exception_ok : forall name seq e s o, okm name seq -> oke e -> ow s o ->
  exists s', write_exception W flush name seq e s = Ok s' /\
    ow s' (o ++ emsg name EXCEPTION seq ++ enc (VStruct (exc_fields e)) ++ eend).
Proof.
  intros name seq e s o Km Ke Ho. unfold write_exception.
  destruct (w_msg name EXCEPTION seq s o) as (s1 & E1 & H1); auto. rewrite E1. cbn [obind].
  destruct (w_exc e s1 _ Ke H1) as (s2 & E2 & H2). rewrite E2. cbn [obind].
  destruct (w_end s2 _ H2) as (s3 & E3 & H3). rewrite E3. cbn [obind].
  destruct (w_flush s3 _ H3) as (s4 & E4 & H4). rewrite E4. cbn [obind].
  exists s4. split; [reflexivity|]. rewrite <- !app_assoc in H4. exact H4.
Qed.

Lemma absent_silent : forall id n d t v, absent t v -> gemits (Mem id n false d t) v = false.
Proof.
  intros id n d t v [(C & ->)|(tag & n1 & cs & -> & ->)]; unfold gemits; cbn [m_ty].
  - rewrite C. reflexivity.
  - reflexivity.
Qed.
Lemma wireof_emits : forall id n d t v w, wireof x t v w -> gemits (Mem id n false d t) v = true.
Proof.
  intros id n d t v w Hw. unfold gemits. cbn [m_ty m_opt].
  destruct Hw; cbn [can_be_nil negb orb andb is_nil]; try reflexivity.
  unfold gisset. cbn [m_ty]. apply negb_true_iff, Z.eqb_neq. unfold in_s, enum_unset in *.
  match goal with X : _ <= z < _ |- _ => clear - X end. lia.
Qed.
Lemma thrown_emits : forall f attrs m, func_ok f -> thrown f attrs m ->
  gemits m (attribute attrs (m_id m)) = true.
Proof.
  intros f attrs m (_ & _ & Hx & _) [Hm Nm]. destruct (Hx m Hm) as (_ & n & ms & E).
  unfold gemits, gisset. rewrite E. apply is_nil_iff in Nm. rewrite Nm. cbn. apply orb_true_r.
Qed.

Lemma id_ok : forall f m, func_ok f -> In m (result_members f) -> in_s 16 (m_id m).
Proof.
  intros f m (_ & So & _) Hm. inversion So as [| | | | | | | | | | | |? ? Mok _]; subst.
  destruct Mok as (_ & _ & Mo). destruct (Mo m Hm) as [_ B]. unfold in_s.
  change (2 ^ (16 - 1)) with (2 ^ 15). clear - B. lia.
Qed.

(** The one member written, or none. *)
Lemma reply_pick : forall f attrs rf, func_ok f -> reply x f attrs rf ->
  match result_pick attrs None (rev (sorted_members (result_members f))) with
  | Some m => In m (result_members f) /\ wireoff x attrs [m] rf
  | None => rf = []
  end.
Proof.
  intros f attrs rf Fok Hr. destruct Hr as [m w Ht Hmax Hw|t w Hn Er Hw|t Hn Er Ha|Hn Er].
  - rewrite (pick_exc f Fok attrs m Ht Hmax).
    assert (Im : In m (result_members f)) by (unfold result_members; apply in_app_iff; right; apply Ht).
    split; [exact Im|]. apply wof_take; [eapply thrown_emits; eassumption|eapply id_ok; eassumption|
                                         exact Hw|constructor].
  - rewrite (pick_none f Fok attrs Hn), Er.
    split; [unfold result_members; rewrite Er; left; reflexivity|].
    apply (wof_take x attrs (Mem 0 s_success false None t) [] w []);
      [eapply wireof_emits; exact Hw|clear; unfold in_s; cbn; lia|exact Hw|constructor].
  - rewrite (pick_none f Fok attrs Hn), Er.
    split; [unfold result_members; rewrite Er; left; reflexivity|].
    apply wof_skip; [apply absent_silent, Ha|constructor].
  - rewrite (pick_none f Fok attrs Hn), Er. reflexivity.
Qed.
Lemma reply_wf : forall f attrs rf, func_ok f -> reply x f attrs rf -> wf (VStruct rf).
Proof.
  intros f attrs rf Fok Hr. pose proof (reply_pick f attrs rf Fok Hr) as P.
  destruct (result_pick _ _ _) as [m|]; [|subst; exact I].
  destruct P as [_ P]. cbn [wf]. eapply (proj2 (proj2 (proj2 (wireof_wf_all x)))). exact P.
Qed.

Definition nbr (f : func) : Prop := forall m, In m (result_members f) -> nb (m_ty m).

Lemma write_result_ok : forall f attrs rf name s o, func_ok f -> reply x f attrs rf -> nbr f ->
  (need (VStruct rf) <= fuel)%nat -> ow' s o ->
  exists s', gwrite_result W x fuel name (result_members f) attrs s = Ok (None, s') /\
    ow' s' (o ++ enc (VStruct rf)).
Proof.
  intros f attrs rf name s o Fok Hr Nb Nf Ho.
  destruct (w_val (VStruct rf) s o (reply_wf f attrs rf Fok Hr) Ho) as (s' & Hw & Ho').
  exists s'. split; [|exact Ho'].
  inversion Hw as [| | | | | | | | | |? ? s1 s2 s3 ? Wb Wf Ws We]; subst.
  unfold gwrite_result. erewrite wq by (apply ww, Wb).
  erewrite wq; [erewrite wq by (apply ww, Ws); apply ww, We|].
  pose proof (reply_pick f attrs rf Fok Hr) as P. destruct (result_pick _ _ _) as [m|].
  - destruct P as [Im P]. cbn [need] in Nf. fold (fneed rf) in Nf.
    pose proof (proj2 (proj2 (proj2 (wr_gwrite_all W x bin))) attrs [m] rf P) as G.
    assert (G' := G ltac:(intros B n [<-|[]]; apply Nb; [assumption|rewrite B; reflexivity]) fuel s1 s2 Wf ltac:(lia)).
    cbn [map wseqs] in G'. unfold wseq, nop in G'.
    destruct (gwrite_field W x fuel m (attribute attrs (m_id m)) s1) as [[[e|] q]| |]; cbn in G'; congruence.
  - subst rf. inversion Wf; subst. reflexivity.
Qed.

Lemma empty_result_ok : forall f name attrs s o, func_ok f -> fn_oneway f = true -> (2 <= fuel)%nat -> ow' s o ->
  exists s', gwrite_result W x fuel name (result_members f) attrs s = Ok (None, s') /\
    ow' s' (o ++ enc (VStruct [])).
Proof.
  intros f name attrs s o Fok One Nf Ho. pose proof Fok as (_ & _ & _ & D & _).
  destruct (D One) as [Er Ex].
  apply write_result_ok; try assumption.
  - apply rp_void; [|exact Er]. intros n [Hn _]. rewrite Ex in Hn. destruct Hn.
  - intros m Hm. unfold result_members in Hm. rewrite Er, Ex in Hm. destruct Hm.
Qed.

(** ** Exactly one answer *)

Lemma lookup_in : forall fs name f, lookup_fn fs name = Some f -> In f fs /\ fn_name f = name.
Proof.
  intros fs name f E. apply find_some in E. destruct E as [Hf E]. apply str_eq_iff in E.
  split; [apply in_rev, Hf|congruence].
Qed.
Lemma lookup_none : forall fs name, lookup_fn fs name = None -> forall f, In f fs -> fn_name f <> name.
Proof.
  intros fs name E f Hf Hn. apply in_rev in Hf. pose proof (find_none _ _ E f Hf) as Q. cbn beta in Q.
  subst name. rewrite str_eq_refl in Q. discriminate.
Qed.

(** The results handlers return can be written. *)
Definition results_ok (fs : list func) : Prop :=
  forall f h vals attrs h', In f fs -> handle h (fn_name f) vals = ((attrs, None), h') ->
    if fn_oneway f then (2 <= fuel)%nat
    else nbr f /\ exists rf, reply x f attrs rf /\ (need (VStruct rf) <= fuel)%nat.
Definition texts_ok (fs : list func) : Prop :=
  (forall e, oke (MkExc PROTOCOL_ERROR (errtext e))) /\
  (forall name seq, okm name seq -> oke (MkExc UNKNOWN_METHOD (s_unknown ++ name))) /\
  (forall f h vals attrs text h', In f fs -> handle h (fn_name f) vals = ((attrs, Some text), h') ->
     oke (MkExc INTERNAL_ERROR (s_internal ++ fn_name f ++ s_colon ++ text))).

Theorem process_once : forall fs h si so o p,
  (forall f, In f fs -> func_ok f) -> results_ok fs -> texts_ok fs -> ow so o ->
  process R W flush x M cf fuel errtext handle fs h si so = Ok p ->
  match rMessageBegin R si with
  | Ok ((name, _, seq), None, _) => okm name seq ->
    exists mt body, answered x errtext handle fs h name mt body (p_h p) (p_success p) /\
      ow (p_out p) (o ++ emsg name mt seq ++ enc (VStruct body) ++ eend)
  | Ok (_, Some e, _) => p_success p = false /\ p_err p = Some (RErr e) /\ p_h p = h /\ p_out p = so
  | _ => False
  end.
Proof.
  intros fs h si so o p Fok Rok Tok Ho Hp. destruct Tok as (Tp & Tu & Ti). unfold process in Hp.
  destruct (rMessageBegin R si) as [[[[[name t] seq] [e|]] s1]| |]; cbn [obind] in Hp; try discriminate.
  { injection Hp; intros; subst p. repeat split. }
  intros Km. destruct (lookup_fn fs name) as [f|] eqn:L.
  - apply lookup_in in L. destruct L as [Hf <-]. unfold process_fn in Hp.
    destruct (gread R x M cf fuel _ s1) as [[[args|e] s2]| |]; cbn [obind] in Hp; try discriminate.
    + destruct (rMessageEnd R s2) as [[e2 s3]| |]; cbn [obind] in Hp; try discriminate.
      set (vals := map _ (fn_args f)) in Hp.
      assert (Lv : length vals = length (fn_args f)) by (unfold vals; apply map_length).
      destruct (handle h (fn_name f) vals) as [[attrs [text|]] h'] eqn:Eh.
      * destruct (write_exception_ok (fn_name f) seq
                    (MkExc INTERNAL_ERROR (s_internal ++ fn_name f ++ s_colon ++ text)) so o Km
                    (Ti f h vals attrs text h' Hf Eh) Ho) as (so' & E1 & Ho').
        rewrite E1 in Hp. cbn [obind] in Hp. injection Hp; intros; subst p. cbn [p_h p_success p_out].
        eexists _, _. split; [|exact Ho']. eapply an_failed; eauto.
      * pose proof (Rok f h vals attrs h' Hf Eh) as Rk.
        destruct (w_msg (fn_name f) REPLY seq so o) as (o1 & E1 & H1); auto. rewrite E1 in Hp. cbn [obind] in Hp.
        assert (Hr : exists rf o2, gwrite_result W x fuel (result_name f) (result_members f)
                  (if fn_oneway f then init_attrs (result_members f) else attrs) o1 = Ok (None, o2) /\
                  ow' o2 ((o ++ emsg (fn_name f) REPLY seq) ++ enc (VStruct rf)) /\
                  (if fn_oneway f then rf = [] else reply x f attrs rf)).
        { destruct (fn_oneway f) eqn:One.
          - destruct (empty_result_ok f (result_name f) (init_attrs (result_members f)) o1 _ (Fok f Hf) One Rk H1) as (o2 & G & G').
            exists [], o2. auto.
          - destruct Rk as (Nb & rf & Hr & Nf).
            destruct (write_result_ok f attrs rf (result_name f) o1 _ (Fok f Hf) Hr Nb Nf H1) as (o2 & G & G').
            exists rf, o2. auto. }
        destruct Hr as (rf & o2 & E2 & H2 & Hrf). rewrite E2 in Hp. cbn [obind] in Hp.
        destruct (w_end o2 _ H2) as (o3 & E3 & H3). rewrite E3 in Hp. cbn [obind] in Hp.
        destruct (w_flush o3 _ H3) as (o4 & E4 & H4). rewrite E4 in Hp. cbn [obind first_error] in Hp.
        injection Hp; intros; subst p. cbn [p_h p_success p_out].
        exists REPLY, rf. split; [eapply an_reply; eauto|]. rewrite <- !app_assoc in H4. exact H4.
    + destruct (rMessageEnd R s2) as [[e2 s3]| |]; cbn [obind] in Hp; try discriminate.
      destruct (write_exception_ok (fn_name f) seq (MkExc PROTOCOL_ERROR (errtext e)) so o Km (Tp e) Ho)
        as (so' & E1 & Ho').
      rewrite E1 in Hp. cbn [obind] in Hp. injection Hp; intros; subst p. cbn [p_h p_success p_out].
      eexists _, _. split; [|exact Ho']. eapply an_malformed; eauto.
  - destruct (skip_default R M fuel STRUCT s1) as [[e2 s2]| |]; cbn [obind] in Hp; try discriminate.
    destruct (rMessageEnd R s2) as [[e3 s3]| |]; cbn [obind] in Hp; try discriminate.
    destruct (write_exception_ok name seq (MkExc UNKNOWN_METHOD (s_unknown ++ name)) so o Km (Tu _ _ Km) Ho)
      as (so' & E1 & Ho').
    rewrite E1 in Hp. cbn [obind] in Hp. injection Hp; intros; subst p. cbn [p_h p_success p_out].
    eexists _, _. split; [|exact Ho']. apply an_unknown. apply lookup_none, L.
Qed.

(** ** The reading side *)

Hypothesis r_msg : forall name t seq v s rest, t = CALL \/ t = REPLY \/ t = EXCEPTION -> okm name seq ->
  wf v -> okv v -> ir s (emsg name t seq ++ enc v ++ eend ++ rest) ->
  exists s', rMessageBegin R s = Ok ((name, t, seq), None, s') /\ ir' s' (enc v ++ eend ++ rest).
Hypothesis r_val : forall v s rest, wf v -> okv v -> ir' s (enc v ++ eend ++ rest) ->
  exists s', rd binr R (ue ub v) s s' /\ ir' s' (eend ++ rest).
Hypothesis r_end : forall s rest, okrest rest -> ir' s (eend ++ rest) ->
  exists s', rMessageEnd R s = Ok (None, s') /\ ir s' rest.
Hypothesis fresh_ok : forall s o, ow s o -> ow (freshW s) o.
Hypothesis okf_ok : forall f, okf f -> func_ok f.
Hypothesis okm_func : forall f seq, okf f -> in_s 32 seq -> okm (fn_name f) seq.
Hypothesis order_perm : forall tag l, Permutation l (x_order x tag l).
Hypothesis okv_exc : forall e, oke e -> wf (VStruct (exc_fields e)) /\ okv (VStruct (exc_fields e)).

Lemma lookup_fn_in : forall fs f, NoDup (map fn_name fs) -> In f fs -> lookup_fn fs (fn_name f) = Some f.
Proof.
  clear r_msg r_val r_end fresh_ok.
  intros fs f Nd Hf. destruct (lookup_fn fs (fn_name f)) as [g|] eqn:E.
  - apply lookup_in in E. destruct E as [Hg En]. f_equal.
    revert Nd Hf Hg En. clear. induction fs as [|a fs IH]; intros Nd Hf Hg En; [destruct Hf|].
    inversion Nd as [|? ? N1 N2]; subst. destruct Hf as [->|Hf], Hg as [->|Hg]; auto.
    + destruct N1. rewrite <- En. apply in_map. exact Hg.
    + destruct N1. rewrite En. apply in_map. exact Hf.
  - destruct (lookup_none _ _ E f Hf eq_refl).
Qed.

Lemma combine_fst : forall (ids : list Z) (vs : list any), length ids = length vs ->
  map fst (combine ids vs) = ids.
Proof. clear r_msg r_val r_end fresh_ok. induction ids as [|i ids IH]; intros [|v vs] E; cbn in *; try congruence. f_equal. apply IH. lia. Qed.
Lemma combine_attr : forall (ms : list member) (args : list any) Q, length ms = length args ->
  NoDup (map m_id ms) ->
  (forall m, In m ms -> same (attribute (combine (map m_id ms) args) (m_id m)) (Q (m_id m))) ->
  Forall2 same args (map (fun m => Q (m_id m)) ms).
Proof.
  clear r_msg r_val r_end fresh_ok.
  induction ms as [|m ms IH]; intros [|a args] Q L Nd Hs; try discriminate; [constructor|].
  cbn [map] in *. inversion Nd as [|? ? N1 N2]; subst. constructor.
  - specialize (Hs m (or_introl eq_refl)). cbn [combine] in Hs. unfold attribute in Hs. cbn [lookup_z fst] in Hs.
    rewrite Z.eqb_refl in Hs. exact Hs.
  - apply IH; [cbn in L; lia|assumption|]. intros n Hn. specialize (Hs n (or_intror Hn)).
    cbn [combine] in Hs. unfold attribute in Hs at 1. cbn [lookup_z fst] in Hs.
    replace (m_id n =? m_id m) with false in Hs; [exact Hs|].
    symmetry. apply Z.eqb_neq. intro E. apply N1. rewrite <- E. apply in_map. exact Hn.
Qed.

(** Arguments that can be sent. *)
Definition args_val (f : func) (args : list any) : any :=
  AStruct 0 (args_name f) (fc_of (fn_args f)) (combine (map m_id (fn_args f)) args).
Definition args_ok (f : func) (args : list any) : Prop :=
  length args = length (fn_args f) /\ nb (TyStruct (args_name f) (fn_args f)) /\
  kept x (TyStruct (args_name f) (fn_args f)) (args_val f args) /\
  forall w, wireof x (TyStruct (args_name f) (fn_args f)) (args_val f args) w ->
    okv w /\ (need w <= fuel)%nat.

Lemma send_ok : forall f args c (w : @world SR SW) o, okf f -> args_ok f args ->
  c_factory c = true -> c_out c = Some FromFactory -> ow (o_own w) o ->
  exists wv w', send W flush freshW x fuel f args c w =
      Ok (None, MkClient true (c_in c) (Some FromFactory) (wraps 32 (c_seq c + 1)), w') /\
    wireof x (TyStruct (args_name f) (fn_args f)) (args_val f args) wv /\
    ow (o_own w') (o ++ emsg (fn_name f) CALL (wraps 32 (c_seq c + 1)) ++ enc wv ++ eend) /\
    o_given w' = o_given w /\ i_own w' = i_own w /\ i_given w' = i_given w.
Proof.
  intros f args c w o Ff (La & Nb & K & Nf) Cf Co Ho. pose proof (okf_ok f Ff) as Fok.
  destruct (kept_round x cf order_perm _ _ K (proj1 Fok)) as (wv & Wv & _).
  destruct (Nf wv Wv) as [_ Nw].
  unfold send. rewrite Co, Cf. cbn [negb].
  set (seq := wraps 32 (c_seq c + 1)).
  destruct (w_msg (fn_name f) CALL seq (freshW (o_own w)) o) as (o1 & E1 & H1);
    [auto|apply okm_func; [assumption|apply wraps_range; lia]|apply fresh_ok, Ho|].
  rewrite E1. cbn [obind].
  destruct (w_val wv o1 _ (wireof_wf _ _ _ _ Wv) H1) as (o2 & Hw & H2).
  fold (args_val f args). rewrite (proj1 (wr_gwrite_all W x bin) _ _ _ Wv (fun B => Nb (f_equal (fun b => b && binr) B)) fuel o1 o2 Hw Nw). cbn [obind].
  destruct (w_end o2 _ H2) as (o3 & E3 & H3). rewrite E3. cbn [obind].
  destruct (w_flush o3 _ H3) as (o4 & E4 & H4). rewrite E4. cbn [obind].
  eexists wv, _. split; [reflexivity|]. split; [exact Wv|]. cbn [o_own o_given i_own i_given].
  split; [rewrite <- !app_assoc in H4; exact H4|auto].
Qed.

(** Results that can be returned. *)
Definition attrs_ok (f : func) (attrs : list (Z * any)) : Prop :=
  nbr f /\
  (forall m, chosen f attrs m ->
     kept x (m_ty m) (attribute attrs (m_id m)) \/ absent (m_ty m) (attribute attrs (m_id m))) /\
  forall rf, reply x f attrs rf -> okv (VStruct rf) /\ (need (VStruct rf) <= fuel)%nat.
(** Results that can be written, whether or not a client can read them. *)
Definition attrs_okw (f : func) (attrs : list (Z * any)) : Prop :=
  nbr f /\
  (forall m, chosen f attrs m ->
     kept x (m_ty m) (attribute attrs (m_id m)) \/ absent (m_ty m) (attribute attrs (m_id m))) /\
  forall rf, reply x f attrs rf -> (need (VStruct rf) <= fuel)%nat.
Definition does_okw (f : func) (h : H) (vals : list any) : Prop :=
  match handle h (fn_name f) vals with
  | ((attrs, None), _) => attrs_okw f attrs
  | ((_, Some text), _) => oke (MkExc INTERNAL_ERROR (s_internal ++ fn_name f ++ s_colon ++ text))
  end.
Definition does_ok (f : func) (h : H) (vals : list any) : Prop :=
  match handle h (fn_name f) vals with
  | ((attrs, None), _) => attrs_ok f attrs
  | ((_, Some text), _) => oke (MkExc INTERNAL_ERROR (s_internal ++ fn_name f ++ s_colon ++ text))
  end.

Lemma thrown_or : forall f attrs, (exists m, thrown f attrs m /\ forall n, thrown f attrs n -> m_id n <= m_id m) \/
  forall n, ~ thrown f attrs n.
Proof.
  clear r_msg r_val r_end fresh_ok.
  intros f attrs. unfold thrown. induction (fn_exc f) as [|m l IH].
  - right. intros n [[] _].
  - destruct (is_nil (attribute attrs (m_id m))) eqn:E.
    + assert (E' : attribute attrs (m_id m) = ANil) by (destruct (attribute attrs (m_id m)); (reflexivity || discriminate)).
      destruct IH as [(k & (I & N) & Mx)|N].
      * left. exists k. split; [split; [right; exact I|exact N]|]. intros n [[<-|In'] Nn]; [congruence|apply Mx; auto].
      * right. intros n [[<-|In'] Nn]; [congruence|apply (N n); auto].
    + apply is_nil_iff in E. left. destruct IH as [(k & (I & N) & Mx)|N].
      * destruct (Z.le_gt_cases (m_id m) (m_id k)) as [L|L].
        -- exists k. split; [split; [right; exact I|exact N]|]. intros n [[<-|In'] Nn]; [exact L|apply Mx; auto].
        -- exists m. split; [split; [left; reflexivity|exact E]|]. intros n [[<-|In'] Nn]; [lia|].
           specialize (Mx n (conj In' Nn)). lia.
      * exists m. split; [split; [left; reflexivity|exact E]|]. intros n [[<-|In'] Nn]; [lia|].
        destruct (N n (conj In' Nn)).
Qed.

Lemma exc_struct : forall f m, func_ok f -> In m (fn_exc f) -> forall v, ~ (absent (m_ty m) v /\ v <> ANil).
Proof.
  clear r_msg r_val r_end fresh_ok.
  intros f m (_ & _ & Hx & _) Hm v [[[_ A]|(tag & n & cs & E & _)] N]; [congruence|].
  destruct (Hx m Hm) as (_ & n' & ms & E'). congruence.
Qed.

(** There is a reply; reading it gives what [returned] says. *)
Lemma attrs_weak : forall f attrs, attrs_ok f attrs -> attrs_okw f attrs.
Proof. clear r_msg r_val r_end fresh_ok. intros f attrs (A & B & C). split; [exact A|]. split; [exact B|]. intros rf Rp. apply C, Rp. Qed.
Lemma does_weak : forall f h vals, does_ok f h vals -> does_okw f h vals.
Proof.
  clear r_msg r_val r_end fresh_ok.
  intros f h vals. unfold does_ok, does_okw. intros K.
  destruct (handle h (fn_name f) vals) as [[attrs [text|]] h']; [exact K|apply attrs_weak, K].
Qed.
Lemma result_round : forall f attrs, func_ok f -> attrs_okw f attrs ->
  exists rf, reply x f attrs rf /\
    exists attrs', reads x cf (TyStruct (result_name f) (result_members f)) (ue ub (VStruct rf))
                     (AStruct 0 (result_name f) (fc_of (result_members f)) attrs') /\
      returned f attrs attrs'.
Proof.
  clear r_msg r_val r_end fresh_ok.
  intros f attrs Fok (_ & K & _). pose proof Fok as (_ & So & Hx & _).
  inversion So as [| | | | | | | | | | | |? ? Mok Sok]; subst. destruct Mok as (Nd & _ & _).
  set (ms := result_members f) in *.
  assert (Ids : map fst (init_attrs ms) = map m_id ms) by (unfold init_attrs; rewrite map_map; reflexivity).
  assert (U : forall a b, In a ms -> In b ms -> m_id a = m_id b -> a = b).
  { revert Nd. clear. induction ms as [|c l IH]; intros Nd a b Ha Hb E; [destruct Ha|]. inversion Nd; subst.
    destruct Ha as [->|Ha], Hb as [->|Hb]; auto.
    - destruct H1. rewrite E. apply in_map. exact Hb.
    - destruct H1. rewrite <- E. apply in_map. exact Ha. }
  assert (Inc : forall m, chosen f attrs m -> In m ms).
  { intros m [[[Hm _] _]|(_ & t & Er & ->)]; unfold ms, result_members.
    - apply in_app_iff. right. exact Hm.
    - rewrite Er. left. reflexivity. }
  assert (Uc : forall m n, chosen f attrs m -> chosen f attrs n -> m = n).
  { intros m n Cm Cn. apply U; auto. destruct Cm as [[Tm Mm]|(Nm & t & Er & ->)], Cn as [[Tn Mn]|(Nn & t' & Er' & ->)].
    - specialize (Mm n Tn). specialize (Mn m Tm). lia.
    - destruct (Nn m Tm).
    - destruct (Nm n Tn).
    - reflexivity. }
  assert (Init : forall m, In m ms -> attribute (init_attrs ms) (m_id m) = m_init m)
    by (intros m Hm; apply attribute_init; assumption).
  assert (Some_ : forall m, chosen f attrs m -> kept x (m_ty m) (attribute attrs (m_id m)) ->
    (forall w, wireof x (m_ty m) (attribute attrs (m_id m)) w -> reply x f attrs [(m_id m, w)]) ->
    exists rf, reply x f attrs rf /\
    exists attrs', reads x cf (TyStruct (result_name f) ms) (ue ub (VStruct rf))
                     (AStruct 0 (result_name f) (fc_of ms) attrs') /\ returned f attrs attrs').
  { intros m C Km Rp. destruct (kept_round x cf order_perm _ _ Km (Sok m (Inc m C))) as (w & Ww & Rd).
    destruct (Rd ub) as (v' & Rv & Sv). exists [(m_id m, w)]. split; [apply Rp, Ww|].
    exists (attr_set (init_attrs ms) (m_id m) v'). split.
    - replace (ue ub (VStruct [(m_id m, w)])) with (VStruct [(m_id m, ue ub w)]) by (destruct ub; reflexivity).
      apply re_struct. eapply ref_known; [apply Inc, C|reflexivity|exact Rv|constructor].
    - assert (Im : In (m_id m) (map fst (init_attrs ms))) by (rewrite Ids; apply in_map, Inc, C).
      split; [rewrite attr_set_ids; exact Ids|]. split.
      + intros n Cn. rewrite <- (Uc m n C Cn). rewrite attr_set_get by assumption. exact Sv.
      + intros n Hn Cn. rewrite attr_set_other; [apply Init, Hn|].
        intro E. apply Cn. rewrite (U n m); auto. }
  assert (Nil_ : (forall m, chosen f attrs m -> same (attribute attrs (m_id m)) (m_init m)) -> reply x f attrs [] ->
    exists rf, reply x f attrs rf /\
    exists attrs', reads x cf (TyStruct (result_name f) ms) (ue ub (VStruct rf))
                     (AStruct 0 (result_name f) (fc_of ms) attrs') /\ returned f attrs attrs').
  { intros Sm Rp. exists []. split; [exact Rp|]. exists (init_attrs ms). split.
    - replace (ue ub (VStruct [])) with (VStruct []) by (destruct ub; reflexivity).
      apply re_struct. constructor.
    - split; [exact Ids|]. split; [|intros m Hm _; apply Init, Hm].
      intros m C. rewrite (Init m (Inc m C)). apply Sm, C. }
  destruct (thrown_or f attrs) as [(m & T & Mx)|N].
  - assert (C : chosen f attrs m) by (left; auto). apply (Some_ m C).
    + destruct (K m C) as [Km|A]; [exact Km|]. exfalso. eapply exc_struct; [exact Fok|apply T|split; [exact A|apply T]].
    + intros w Ww. apply rp_exc; assumption.
  - destruct (fn_ret f) as [t|] eqn:Er.
    + set (m := Mem 0 s_success false None t).
      assert (C : chosen f attrs m) by (right; split; [exact N|exists t; auto]).
      destruct (K m C) as [Km|A].
      * apply (Some_ m C Km). intros w Ww. apply (rp_val x f attrs t w N Er Ww).
      * apply Nil_; [|exact (rp_none x f attrs t N Er A)]. intros n Cn. rewrite <- (Uc m n C Cn).
        cbn [m m_id m_init m_def m_ty] in *. destruct A as [(Cn' & E)|(tag & nn & cs & E1 & E2)].
        -- cbn [m_ty m] in E, Cn'. rewrite E. unfold m_init. cbn [m m_def m_ty].
           destruct t; try discriminate Cn'; constructor; reflexivity.
        -- rewrite E2. unfold m_init. cbn [m m_def m_ty] in *. subst t. constructor. reflexivity.
    + apply Nil_; [|apply rp_void; assumption].
      intros m [[T _]|(_ & t & E & _)]; [destruct (N m T)|congruence].
Qed.

(** ** A request served *)

(** The requests may be encoded in another way than the answers. *)
Section Answering.
Variable enci : tval -> bytes.
Variable emsgi : bytes -> Z -> Z -> bytes.
Variable eendi : bytes.
Hypothesis i_msg : forall name t seq v s rest, t = CALL \/ t = REPLY \/ t = EXCEPTION -> okm name seq ->
  wf v -> okv v -> ir s (emsgi name t seq ++ enci v ++ eendi ++ rest) ->
  exists s', rMessageBegin R s = Ok ((name, t, seq), None, s') /\ ir' s' (enci v ++ eendi ++ rest).
Hypothesis i_val : forall v s rest, wf v -> okv v -> ir' s (enci v ++ eendi ++ rest) ->
  exists s', rd binr R (ue ub v) s s' /\ ir' s' (eendi ++ rest).
Hypothesis i_end : forall s rest, okrest rest -> ir' s (eendi ++ rest) ->
  exists s', rMessageEnd R s = Ok (None, s') /\ ir s' rest.
Theorem process_valid : forall fs f args h si so o seq wv rest,
  (forall f, In f fs -> okf f) -> NoDup (map fn_name fs) ->
  (forall vals, Forall2 same args vals -> does_okw f h vals) ->
  In f fs -> args_ok f args -> in_s 32 seq ->
  wireof x (TyStruct (args_name f) (fn_args f)) (args_val f args) wv ->
  ir si (emsgi (fn_name f) CALL seq ++ enci wv ++ eendi ++ rest) -> okrest rest -> ow so o ->
  exists vals p mt body,
    process R W flush x M cf fuel errtext handle fs h si so = Ok p /\
    ir (p_in p) rest /\ Forall2 same args vals /\
    ow (p_out p) (o ++ emsg (fn_name f) mt seq ++ enc (VStruct body) ++ eend) /\
    p_h p = snd (handle h (fn_name f) vals) /\
    (p_err p = option_map RHandler (snd (fst (handle h (fn_name f) vals))) /\
     (p_success p = true <-> snd (fst (handle h (fn_name f) vals)) = None)) /\
    match fst (handle h (fn_name f) vals) with
    | (attrs, None) => mt = REPLY /\ reply x f attrs body
    | (_, Some text) => mt = EXCEPTION /\
        body = exc_fields (MkExc INTERNAL_ERROR (s_internal ++ fn_name f ++ s_colon ++ text))
    end.
Proof.
  clear r_msg r_val r_end fresh_ok.
  intros fs f args h si so o seq wv rest Fok' Nd Hok Hf Aok Hs Wv Hi Hr Ho.
  assert (Fok : forall g, In g fs -> func_ok g) by (intros g Hg; apply okf_ok, Fok', Hg).
  pose proof (Fok f Hf) as Ff. pose proof Aok as (La & Nba & K & Nf). destruct (Nf wv Wv) as [Kv Nw].
  assert (Km : okm (fn_name f) seq) by (apply okm_func; [apply Fok'|]; assumption).
  destruct (i_msg (fn_name f) CALL seq wv si rest (or_introl eq_refl) Km (wireof_wf _ _ _ _ Wv) Kv Hi) as (s1 & E1 & H1).
  destruct (i_val wv s1 rest (wireof_wf _ _ _ _ Wv) Kv H1) as (s2 & Rd & H2).
  destruct (kept_round x cf order_perm _ _ K (proj1 Ff)) as (wv' & Wv' & Rr).
  rewrite (wireof_fun _ _ _ _ _ Wv' Wv) in Rr. clear wv' Wv'.
  destruct (Rr ub) as (v' & Rv & Sv).
  assert (G : gread R x M cf fuel (TyStruct (args_name f) (fn_args f)) s1 = Ok (inl v', s2)).
  { apply (proj1 (rd_gread_all R binr x M cf) _ _ _ Rv (proj1 Ff) (fun B => Nba (eq_trans (f_equal (andb bin) B) (andb_false_r bin))) fuel s1 s2 Rd).
    destruct ub; cbn [ue]; [rewrite need_ue|]; exact Nw. }
  destruct (i_end s2 rest Hr H2) as (s3 & E3 & H3).
  pose proof (proj1 Ff) as So. inversion So as [| | | | | | | | | | | |? ? Mok Sok]; subst.
  destruct Mok as (Ndi & _ & _).
  unfold args_val in Sv. inversion Sv as [v0 Sc| | | |a n fc at1 a' fc' at2 Ef Es]; subst; [discriminate Sc|].
  set (vals := map (fun m => attribute at2 (m_id m)) (fn_args f)).
  assert (Fv : Forall2 same args vals).
  { apply combine_attr; [congruence|assumption|]. intros m Hm. apply Es.
    rewrite combine_fst by (rewrite map_length; congruence). apply in_map, Hm. }
  exists vals. unfold process. rewrite E1. cbn [obind]. rewrite (lookup_fn_in fs f Nd Hf).
  unfold process_fn. rewrite G. cbn [obind]. rewrite E3. cbn [obind]. fold vals.
  specialize (Hok vals Fv). unfold does_okw in Hok. destruct (handle h (fn_name f) vals) as [[attrs [text|]] h'] eqn:Eh.
  - destruct (write_exception_ok (fn_name f) seq _ so o Km Hok Ho) as (so' & E4 & Ho').
    rewrite E4. cbn [obind]. eexists _, EXCEPTION, _. split; [reflexivity|]. cbn [p_in p_out p_h p_err p_success option_map fst snd].
    split; [exact H3|]. split; [exact Fv|]. split; [exact Ho'|]. split; [reflexivity|].
    split; [split; [reflexivity|split; discriminate]|]. auto.
  - destruct (result_round f attrs Ff Hok) as (rf & Rp & _). destruct Hok as (Nb & _ & Nr).
    pose proof (Nr rf Rp) as Nrf.
    assert (Rp' : reply x f (if fn_oneway f then init_attrs (result_members f) else attrs) rf).
    { destruct (fn_oneway f) eqn:One; [|exact Rp].
      destruct (proj1 (proj2 (proj2 (proj2 Ff))) One) as [Er Ex].
      assert (Nt : forall a m, ~ thrown f a m) by (intros a m [Hm _]; rewrite Ex in Hm; exact Hm).
      inversion Rp as [m w T Mx Ww|t w N Et Ww|t N Et A|N Et]; subst; try congruence.
      - destruct (Nt _ _ T).
      - apply rp_void; [apply Nt|exact Er]. }
    destruct (w_msg (fn_name f) REPLY seq so o) as (o1 & W1 & H4); auto. rewrite W1. cbn [obind].
    destruct (write_result_ok f _ rf (result_name f) o1 _ Ff Rp' Nb Nrf H4) as (o2 & W2 & H5).
    rewrite W2. cbn [obind].
    destruct (w_end o2 _ H5) as (o3 & W3 & H6). rewrite W3. cbn [obind].
    destruct (w_flush o3 _ H6) as (o4 & W4 & H7). rewrite W4. cbn [obind first_error].
    eexists _, REPLY, rf. split; [reflexivity|]. cbn [p_in p_out p_h p_err p_success option_map fst snd].
    split; [exact H3|]. split; [exact Fv|]. split; [rewrite <- !app_assoc in H7; exact H7|]. split; [reflexivity|].
    split; [split; [reflexivity|split; reflexivity]|]. auto.
Qed.

Theorem process_unknown : forall fs h si so o name t seq fl rest,
  (forall f, In f fs -> fn_name f <> name) -> t = CALL \/ t = REPLY \/ t = EXCEPTION ->
  okm name seq -> wf (VStruct fl) -> okv (VStruct fl) -> (need (VStruct fl) <= fuel)%nat ->
  oke (MkExc UNKNOWN_METHOD (s_unknown ++ name)) ->
  ir si (emsgi name t seq ++ enci (VStruct fl) ++ eendi ++ rest) -> okrest rest -> ow so o ->
  exists p, process R W flush x M cf fuel errtext handle fs h si so = Ok p /\
    ir (p_in p) rest /\ p_h p = h /\ p_success p = false /\
    p_err p = Some (RApp (MkExc UNKNOWN_METHOD (s_unknown ++ name))) /\
    ow (p_out p) (o ++ emsg name EXCEPTION seq ++
                  enc (VStruct (exc_fields (MkExc UNKNOWN_METHOD (s_unknown ++ name)))) ++ eend).
Proof.
  clear r_msg r_val r_end fresh_ok.
  intros fs h si so o name t seq fl rest Hn Ht Km Hw Kv Nf Ke Hi Hr Ho.
  destruct (i_msg name t seq (VStruct fl) si rest Ht Km Hw Kv Hi) as (s1 & E1 & H1).
  destruct (i_val (VStruct fl) s1 rest Hw Kv H1) as (s2 & Rd & H2).
  destruct (i_end s2 rest Hr H2) as (s3 & E3 & H3).
  unfold process. rewrite E1. cbn [obind].
  replace (lookup_fn fs name) with (@None func).
  2:{ destruct (lookup_fn fs name) as [g|] eqn:L; [|reflexivity]. apply lookup_in in L.
      destruct L as [Hg En]. destruct (Hn g Hg En). }
  unfold skip_default.
  assert (Sk : skip R M fuel STRUCT M s1 = Ok (None, s2)).
  { replace STRUCT with (vtype (ue ub (VStruct fl))) by (destruct ub; reflexivity).
    apply (proj1 (rd_skip_all R binr M) _ _ _ Rd).
    destruct ub; cbn [ue]; [rewrite need_ue|]; exact Nf. }
  rewrite Sk. cbn [obind]. rewrite E3. cbn [obind].
  destruct (write_exception_ok name seq _ so o Km Ke Ho) as (so' & E4 & Ho'). rewrite E4. cbn [obind].
  eexists. split; [reflexivity|]. cbn [p_in p_h p_success p_err p_out]. auto.
Qed.
End Answering.

(** ** A reply received *)

Lemma recv_reply : forall f seq s rest attrs rf, okf f -> attrs_ok f attrs -> in_s 32 seq ->
  reply x f attrs rf -> ir s (emsg (fn_name f) REPLY seq ++ enc (VStruct rf) ++ eend ++ rest) -> okrest rest ->
  exists attrs' s', recv_on R x M cf fuel f seq s = Ok ((attrs', None), s') /\ ir s' rest /\
    returned f attrs attrs'.
Proof.
  intros f seq s rest attrs rf Ff Aok Hs Rp Hi Hr. pose proof Aok as (Nbf & _ & Nr). pose proof (okf_ok f Ff) as Fok.
  destruct (Nr rf Rp) as [Kv Nw].
  destruct (result_round f attrs Fok (attrs_weak f attrs Aok)) as (rf' & Rp' & attrs' & Rd & Ret).
  assert (rf' = rf) as ->.
  { pose proof (reply_pick f attrs rf Fok Rp) as P. pose proof (reply_pick f attrs rf' Fok Rp') as P'.
    destruct (result_pick _ _ _) as [m|]; [|congruence]. destruct P as [_ P], P' as [_ P'].
    eapply (proj2 (proj2 (proj2 (wireof_fun_all x)))); eassumption. }
  destruct (r_msg (fn_name f) REPLY seq (VStruct rf) s rest (or_intror (or_introl eq_refl)) (okm_func f seq Ff Hs)
              (reply_wf f attrs rf Fok Rp) Kv Hi)
    as (s1 & E1 & H1).
  destruct (r_val (VStruct rf) s1 rest (reply_wf f attrs rf Fok Rp) Kv H1) as (s2 & Rv & H2).
  destruct (r_end s2 rest Hr H2) as (s3 & E3 & H3).
  exists attrs', s3. split; [|auto]. unfold recv_on. rewrite E1. cbn [obind].
  change (REPLY =? EXCEPTION) with false. cbn [negb]. rewrite Z.eqb_refl. cbn [negb].
  erewrite (proj1 (rd_gread_all R binr x M cf) _ _ _ Rd (proj1 (proj2 Fok))
    ltac:(intro B; constructor; intros m Hm; apply (Nbf m Hm); rewrite B; apply andb_false_r) fuel s1 s2 Rv);
    [|destruct ub; cbn [ue]; [rewrite need_ue|]; exact Nw].
  cbn [obind]. rewrite E3. reflexivity.
Qed.

Lemma exc_need : forall e, (need (VStruct (exc_fields e)) <= 4)%nat.
Proof. intros [t [|b m]]; cbn; lia. Qed.
Lemma recv_exception : forall f name seq s rest e t, okm name seq -> oke e -> (4 <= fuel)%nat ->
  ir s (emsg name EXCEPTION seq ++ enc (VStruct (exc_fields e)) ++ eend ++ rest) -> okrest rest ->
  exists s', recv_on R x M cf fuel f t s = Ok ((zero_attrs (result_members f), Some (RApp e)), s') /\ ir s' rest.
Proof.
  intros f name seq s rest e t Km Ke Nf Hi Hr.
  destruct (okv_exc e Ke) as [We Ve].
  destruct (r_msg name EXCEPTION seq _ s rest (or_intror (or_intror eq_refl)) Km We Ve Hi) as (s1 & E1 & H1).
  destruct (r_val _ s1 rest We Ve H1) as (s2 & Rv & H2).
  destruct (r_end s2 rest Hr H2) as (s3 & E3 & H3).
  replace (ue ub (VStruct (exc_fields e))) with (VStruct (exc_fields e)) in Rv
    by (destruct ub; [destruct e as [? [|? ?]]|]; reflexivity).
  exists s3. split; [|exact H3]. unfold recv_on. rewrite E1. cbn [obind].
  change (EXCEPTION =? EXCEPTION) with true. cbn iota.
  rewrite (app_read_rd binr R M _ s1 s2 fuel Rv) by (pose proof (exc_need e); lia). cbn [obind].
  rewrite E3. cbn [obind]. rewrite exc_of_fields. reflexivity.
Qed.

(** ** Any number of calls *)

Variable drain : SW -> bytes * SW.
Variable feed : SR -> list bytes -> SR.
Variable cut : nat -> bytes -> list bytes.
Hypothesis drain_ok : forall s o, ow s o -> fst (drain s) = o /\ ow (snd (drain s)) [].
(** The messages that go from one side to the other, and pieces that can be read. *)
Definition doc (b : bytes) : Prop := exists name t seq v, (t = CALL \/ t = REPLY \/ t = EXCEPTION) /\
  okm name seq /\ wf v /\ okv v /\ b = emsg name t seq ++ enc v ++ eend.
Variable safe : list bytes -> Prop.
Hypothesis feed_ok : forall s cs, ir s [] -> safe cs -> ir (feed s cs) (concat cs).
Hypothesis cut_ok : forall n b, doc b -> concat (cut n b) = b /\ safe (cut n b).
Hypothesis okrest_nil : okrest [].
Hypothesis fuel_ok : (4 <= fuel)%nat.

(** One call: what is written by the client and by the processor, and what it gives. *)
Lemma call_served : forall fs f args n st,
  (forall f, In f fs -> okf f) -> NoDup (map fn_name fs) ->
  (forall vals, Forall2 same args vals -> does_ok f (pr_h st) vals) ->
  In f fs -> fn_oneway f = false -> args_ok f args ->
  c_factory (pr_c st) = true -> c_out (pr_c st) = Some FromFactory -> c_in (pr_c st) = Some FromFactory ->
  ow (o_own (pr_w st)) [] -> ow (pr_out st) [] -> ir (i_own (pr_w st)) [] -> ir (pr_in st) [] ->
  (exists c1 w1 p, send W flush freshW x fuel f args (pr_c st) (pr_w st) = Ok (None, c1, w1) /\
    doc (fst (drain (o_own w1))) /\
    process R W flush x M cf fuel errtext handle fs (pr_h st)
      (feed (pr_in st) (cut (2 * n) (fst (drain (o_own w1))))) (pr_out st) = Ok p /\
    doc (fst (drain (p_out p)))) /\
  exists r st', call R W flush freshR freshW x M cf fuel errtext handle fs drain feed cut n f args st = Ok (r, st') /\
    served handle f args (pr_h st) r (pr_h st') /\
    c_factory (pr_c st') = true /\ c_out (pr_c st') = Some FromFactory /\ c_in (pr_c st') = Some FromFactory /\
    ow (o_own (pr_w st')) [] /\ ow (pr_out st') [] /\ ir (i_own (pr_w st')) [] /\ ir (pr_in st') [].
Proof.
  intros fs f args n st Fok Nd Hok Hf One Aok Cf Co Ci Ho1 Ho2 Hi1 Hi2. pose proof (Fok f Hf) as Ff.
  destruct (send_ok f args (pr_c st) (pr_w st) [] Ff Aok Cf Co Ho1)
    as (wv & w1 & E1 & Wv & O1 & G1 & I1 & J1).
  set (seq := wraps 32 (c_seq (pr_c st) + 1)) in *.
  assert (Hs : in_s 32 seq) by (apply wraps_range; lia).
  pose proof (drain_ok _ _ O1) as [D1 D2]. destruct (drain (o_own w1)) as [b1 o1] eqn:Dr1. cbn [fst snd] in D1, D2. subst b1.
  destruct Aok as (La & Nba & Ka & Nfa). destruct (Nfa wv Wv) as [Kv _].
  assert (Aok : args_ok f args) by (split; [exact La|]; split; [exact Nba|]; split; assumption).
  assert (Doc1 : doc ([] ++ emsg (fn_name f) CALL seq ++ enc wv ++ eend)).
  { exists (fn_name f), CALL, seq, wv. split; [auto|]. split; [apply okm_func; assumption|].
    split; [exact (wireof_wf _ _ _ _ Wv)|]. split; [exact Kv|reflexivity]. }
  destruct (cut_ok (2 * n) _ Doc1) as [C1 C2].
  pose proof (feed_ok (pr_in st) _ Hi2 C2) as F1. rewrite C1 in F1.
  cbn [app] in F1, C1, C2, Doc1, Dr1. rewrite <- (app_nil_r eend) in F1 at 2.
  destruct (process_valid enc emsg eend r_msg r_val r_end fs f args (pr_h st) _ (pr_out st) [] seq wv [] Fok Nd (fun vals Hv => does_weak f (pr_h st) vals (Hok vals Hv)) Hf Aok Hs Wv F1 okrest_nil Ho2)
    as (vals & p & mt & body & P & Pi & Fv & Po & Ph & _ & Pm).
  cbn [app] in Po.
  pose proof (drain_ok _ _ Po) as [D3 D4]. destruct (drain (p_out p)) as [b2 so'] eqn:Dr2. cbn [fst snd] in D3, D4. subst b2.
  pose proof (Hok vals Fv) as Hh. unfold does_ok in Hh.
  assert (Doc2 : doc (emsg (fn_name f) mt seq ++ enc (VStruct body) ++ eend)).
  { destruct (handle (pr_h st) (fn_name f) vals) as [[attrs [text|]] h']; cbn [fst snd] in Pm; destruct Pm as [-> Pm].
    - subst body. destruct (okv_exc _ Hh). exists (fn_name f), EXCEPTION, seq, (VStruct (exc_fields
        (MkExc INTERNAL_ERROR (s_internal ++ fn_name f ++ s_colon ++ text)))).
      split; [auto|]. split; [apply okm_func; assumption|]. auto.
    - exists (fn_name f), REPLY, seq, (VStruct body). split; [auto|]. split; [apply okm_func; assumption|].
      split; [exact (reply_wf f attrs body (okf_ok f Ff) Pm)|]. split; [apply Hh, Pm|reflexivity]. }
  split.
  { eexists _, w1, p. split; [exact E1|]. rewrite Dr1. cbn [fst]. split; [exact Doc1|]. split; [exact P|]. rewrite Dr2. exact Doc2. }
  unfold call. rewrite E1. cbn [obind]. rewrite Dr1, P. cbn [obind]. rewrite Dr2, One.
  destruct (cut_ok (2 * n + 1) _ Doc2) as [C3 C4].
  rewrite I1. pose proof (feed_ok (i_own (pr_w st)) _ Hi1 C4) as F2.
  rewrite C3 in F2. rewrite <- (app_nil_r eend) in F2 at 2.
  unfold recv. cbn [c_in c_seq]. rewrite Ci. cbn [i_own].
  destruct (handle (pr_h st) (fn_name f) vals) as [[attrs [text|]] h'] eqn:Eh; cbn [fst snd] in Ph, Pm;
    destruct Pm as [-> Pm].
  - subst body. destruct (recv_exception f (fn_name f) seq _ [] _ seq (okm_func f seq Ff Hs) Hh fuel_ok F2 okrest_nil)
      as (s' & E2 & Hi').
    rewrite E2. cbn [obind]. eexists _, _. split; [reflexivity|]. cbn [pr_h pr_c pr_w pr_out pr_in o_own i_own c_factory c_in c_out].
    split; [rewrite Ph; eapply sv_failed; eassumption|].
    split; [reflexivity|]. split; [reflexivity|]. split; [reflexivity|]. auto.
  - destruct (recv_reply f seq _ [] attrs body Ff Hh Hs Pm F2 okrest_nil) as (attrs' & s' & E2 & Hi' & Ret).
    rewrite E2. cbn [obind]. eexists _, _. split; [reflexivity|]. cbn [pr_h pr_c pr_w pr_out pr_in o_own i_own c_factory c_in c_out].
    split; [rewrite Ph; eapply sv_value; eassumption|].
    split; [reflexivity|]. split; [reflexivity|]. split; [reflexivity|]. auto.
Qed.

(** [Inv] holds of the handler's state before each call. *)
Lemma calls_served : forall (Inv : H -> Prop) fs l n st,
  (forall f, In f fs -> okf f) -> NoDup (map fn_name fs) -> Inv (pr_h st) ->
  (forall f args h vals, In (f, args) l -> Inv h -> Forall2 same args vals ->
     does_ok f h vals /\ Inv (snd (handle h (fn_name f) vals))) ->
  (forall f args, In (f, args) l -> In f fs /\ fn_oneway f = false /\ args_ok f args) ->
  c_factory (pr_c st) = true -> c_out (pr_c st) = Some FromFactory -> c_in (pr_c st) = Some FromFactory ->
  ow (o_own (pr_w st)) [] -> ow (pr_out st) [] -> ir (i_own (pr_w st)) [] -> ir (pr_in st) [] ->
  exists rs st', calls R W flush freshR freshW x M cf fuel errtext handle fs drain feed cut n l st = Ok (rs, st') /\
    serves handle l (pr_h st) rs (pr_h st') /\ Inv (pr_h st') /\
    ow (o_own (pr_w st')) [] /\ ow (pr_out st') [] /\ ir (i_own (pr_w st')) [] /\ ir (pr_in st') [].
Proof.
  intros Inv fs l. induction l as [|[f args] l IH]; intros n st Fok Nd Hv Hok Lok Cf Co Ci Ho1 Ho2 Hi1 Hi2.
  { exists [], st. split; [reflexivity|]. split; [constructor|]. split; [exact Hv|]. split; [exact Ho1|]. split; [exact Ho2|].
    split; assumption. }
  destruct (Lok f args (or_introl eq_refl)) as (Hf & One & Aok).
  cbn [calls].
  destruct (call_served fs f args n st Fok Nd (fun vals Fv => proj1 (Hok f args (pr_h st) vals (or_introl eq_refl) Hv Fv)) Hf One Aok Cf Co Ci Ho1 Ho2 Hi1 Hi2)
    as (_ & r & st1 & E & Sv & Cf' & Co' & Ci' & A1 & A2 & A3 & A4).
  rewrite E. cbn [obind].
  assert (Hv1 : Inv (pr_h st1)).
  { inversion Sv as [vals ? ? ? Fv Eh|vals ? ? ? Fv Eh]; subst;
      pose proof (proj2 (Hok f args (pr_h st) vals (or_introl eq_refl) Hv Fv)) as K; rewrite Eh in K; exact K. }
  destruct (IH (S n) st1 Fok Nd Hv1 (fun g a h vals Hg => Hok g a h vals (or_intror Hg)) (fun g a Hg => Lok g a (or_intror Hg)) Cf' Co' Ci' A1 A2 A3 A4)
    as (rs & st2 & E2 & Ss & B).
  rewrite E2. cbn [obind]. exists (r :: rs), st2. split; [reflexivity|]. split; [|exact B].
  econstructor; eassumption.
Qed.
End Channel.
