(** Properties of comparison, coercion and the container objects: C36-C41, C62-C64. *)
From Coq Require Import ZArith List Bool Lia Sorted Permutation.
From Coq Require Import ZifyBool ZifyNat SpecFloat.
From Verif Require Import Base Arith F64 Strconv TField GoVal Compare CompareProofs TList TSet TMap
  TFieldProofs CoerceProofs.
Import ListNotations.
Open Scope Z_scope.
Ltac Zify.zify_post_hook ::= Z.div_mod_to_equations.

(** An instance of the library routines left open, for examples. *)
Definition ext0 : ext :=
  MkExt (fun _ => []) (fun _ => []) (fun _ => (0, None)) (fun _ => 0) (fun _ l => l) (fun _ _ => false).

(** ** C36 *)

(** On the values of a scalar type Compare always answers, and its answer is the order
    [scalar_lt] with [scalar_eq] for 0; that order is strict, total, transitive, and compatible
    with the equality.  NaN is excluded; see below. *)
Theorem C36_total_order_partial : forall x f p,
  (forall i j, native p i -> native p j ->
     exists c, Compare x (S f) p i j = Ok (c, true) /\
       ((c = -1 /\ scalar_lt i j) \/ (c = 0 /\ scalar_eq i j) \/ (c = 1 /\ scalar_lt j i))) /\
  (forall i j k, native p i -> native p j -> native p k ->
     ~ scalar_lt i i /\
     (scalar_lt i j -> scalar_lt j k -> scalar_lt i k) /\
     (scalar_lt i j \/ scalar_eq i j \/ scalar_lt j i) /\
     (scalar_lt i j -> ~ scalar_eq i j) /\
     (scalar_eq i i) /\ (scalar_eq i j -> scalar_eq j i) /\
     (scalar_eq i j -> scalar_eq j k -> scalar_eq i k) /\
     (scalar_eq i j -> scalar_lt j k -> scalar_lt i k) /\
     (scalar_lt i j -> scalar_eq j k -> scalar_lt i k)).
Proof. intros x f p. split; [intros; apply Compare_scalar_spec; auto|intros; eapply scalar_order; eauto]. Qed.
Print Assumptions C36_total_order_partial.

Definition dbl_1 : Z := 4607182418800017408.       (* 1.0 *)
Definition dbl_m2 : Z := 13835058055282163712.     (* -2.0 *)
Definition dbl_m0 : Z := 9223372036854775808.      (* -0.0 *)
Definition dbl_nan : Z := 9221120237041090561.
Example C36_ex :
  native DOUBLE (AF64 dbl_1) /\ native DOUBLE (AF64 dbl_m2) /\ native BINARY (ABytes [1; 255]) /\
  Compare ext0 1 DOUBLE (AF64 dbl_m2) (AF64 dbl_1) = Ok (-1, true) /\
  Compare ext0 1 DOUBLE (AF64 dbl_m0) (AF64 0) = Ok (0, true) /\
  Compare ext0 1 BINARY (ABytes [1; 255]) (ABytes [1]) = Ok (1, true) /\
  Compare ext0 1 BYTE (AByte 200) (AByte 100) = Ok (1, true).
Proof.
  split; [constructor; [unfold in_u, dbl_1; lia|intros H; vm_compute in H; discriminate H]|].
  split; [constructor; [unfold in_u, dbl_m2; lia|intros H; vm_compute in H; discriminate H]|].
  split; [constructor; repeat (constructor; try lia)|]. repeat split; vm_compute; reflexivity.
Qed.

(** NaN: compared with itself, and with every number in either order, the answer is 1. *)
Theorem C36_nan_refuted : exists i j, i = AF64 dbl_nan /\ j = AF64 dbl_1 /\
  Compare ext0 1 DOUBLE i i = Ok (1, true) /\
  Compare ext0 1 DOUBLE i j = Ok (1, true) /\ Compare ext0 1 DOUBLE j i = Ok (1, true).
Proof. exists (AF64 dbl_nan), (AF64 dbl_1). repeat split; vm_compute; reflexivity. Qed.
Print Assumptions C36_nan_refuted.

(** ** C37 *)

Lemma kin_eq : forall et v l, native et v -> Forall (native et) l ->
  (kin v l <-> exists e, In e l /\ scalar_eq e v).
Proof.
  intros et v l Hv Hl. rewrite Forall_forall in Hl. split; intros (e & He & E); exists e; split; auto;
  apply (key_eq et); auto.
Qed.

(** Histories of Add and Remove in which no element below all present ones is added to a
    non-empty set: Contains and Values describe exactly the elements added and not removed
    since, Values is strictly descending, and Len counts it (an empty set reports the size
    hint). *)
Theorem C37_set_partial : forall x f et size h,
  (forall o, In o h -> native et (op_val o)) -> no_new_minimum et h ->
  exists p, ts_run x (S f) (NewTSet et size) h = Ok p /\
    (forall v, native et v -> exists b, ts_Contains x f p v = Ok b /\ (b = true <-> added h v)) /\
    (forall v, native et v -> ((exists e, In e (ts_Values p) /\ scalar_eq e v) <-> added h v)) /\
    StronglySorted (fun a b => scalar_lt b a) (ts_Values p) /\
    Forall (native et) (ts_Values p) /\
    ts_Len p = (if (length (ts_Values p) =? 0)%nat then size else Z.of_nat (length (ts_Values p))).
Proof.
  intros x f et size h Hn Hm. destruct (ts_history x f et size h Hn Hm) as (p & E & I & Et & Es & K).
  exists p. split; [exact E|]. destruct (ts_values p I) as (V1 & V2 & V3 & V4). rewrite Et in V2.
  split; [|split; [|split; [|split]]].
  - intros v Hv. destruct (contains_kin x f p v I) as (b & Eb & Kb); [congruence|].
    exists b. split; [exact Eb|]. rewrite Kb. apply K, Hv.
  - intros v Hv. rewrite <- (K v Hv). symmetry. apply (kin_eq et); auto.
  - exact V1.
  - exact V2.
  - destruct (ts_Values p) as [|a l] eqn:El; cbn [length Nat.eqb].
    + rewrite V4; auto.
    + rewrite V3; [reflexivity|discriminate].
Qed.
Print Assumptions C37_set_partial.

Example C37_ex : exists h,
  h = [SAdd (AInt32 1); SAdd (AInt32 5); SAdd (AInt32 3); SRemove (AInt32 1); SAdd (AInt32 4); SAdd (AInt32 3)] /\
  (forall o, In o h -> native I32 (op_val o)) /\ no_new_minimum I32 h /\
  ts_run ext0 1 (NewTSet I32 0) h = Ok (MkTs I32 0 [AInt32 5; AInt32 4; AInt32 3]).
Proof.
  eexists. split; [reflexivity|]. split; [|split].
  - intros o Ho. cbn [In] in Ho. repeat destruct Ho as [<-|Ho]; try contradiction; constructor; unfold in_s; lia.
  - assert (N : forall z, in_s 32 z -> native I32 (AInt32 z)) by (intros; constructor; auto).
    intros h1 a h2 E.
    destruct h1 as [|o1 h1]; [injection E as <- _; left; intros v Hv (k1 & b & k2 & C & _); destruct k1; discriminate|].
    right. injection E as <- E.
    assert (A5 : forall r, (forall b, In (SRemove b) r -> b = AInt32 1) ->
      added (SAdd (AInt32 1) :: SAdd (AInt32 5) :: r) (AInt32 5)).
    { intros r Hr. exists [SAdd (AInt32 1)], (AInt32 5), r. repeat split. intros b Hb Q. apply Hr in Hb. subst. discriminate. }
    assert (A3 : forall r, (forall b, In (SRemove b) r -> b = AInt32 1) ->
      added (SAdd (AInt32 1) :: SAdd (AInt32 5) :: SAdd (AInt32 3) :: r) (AInt32 3)).
    { intros r Hr. exists [SAdd (AInt32 1); SAdd (AInt32 5)], (AInt32 3), r. repeat split. intros b Hb Q. apply Hr in Hb. subst. discriminate. }
    assert (A1 : forall r, (forall b, ~ In (SRemove b) r) -> added (SAdd (AInt32 1) :: r) (AInt32 1)).
    { intros r Hr. exists [], (AInt32 1), r. repeat split. intros b Hb Q. exact (Hr _ Hb). }
    destruct h1 as [|o1 h1]; [injection E as <- _; exists (AInt32 1); repeat split;
      [apply N; unfold in_s; lia|apply A1; intros b []|cbn; lia]|].
    injection E as <- E.
    destruct h1 as [|o1 h1]; [injection E as <- _; exists (AInt32 1); repeat split;
      [apply N; unfold in_s; lia|apply A1; intros b [Q|[]]; discriminate|cbn; lia]|].
    injection E as <- E.
    destruct h1 as [|o1 h1]; [discriminate|]. injection E as <- E.
    destruct h1 as [|o1 h1]; [injection E as <- _; exists (AInt32 3); repeat split;
      [apply N; unfold in_s; lia|apply A3; cbn; intros b [Q|[]]; congruence|cbn; lia]|].
    injection E as <- E.
    destruct h1 as [|o1 h1]; [injection E as <- _; exists (AInt32 3); repeat split;
      [apply N; unfold in_s; lia|apply A3; cbn; intros b [Q|[Q|[]]]; congruence|cbn; lia]|].
    injection E as <- E. destruct h1; discriminate.
  - vm_compute. reflexivity.
Qed.

(** An element below all those of a non-empty set of scalars is never stored. *)
Theorem C37_new_minimum_lost : forall x f p a, Forall (native (ts_et p)) (ts_l p) ->
  ts_l p <> [] -> native (ts_et p) a -> (forall e, In e (ts_l p) -> scalar_lt a e) ->
  ts_Add x (S f) p a = Ok p.
Proof.
  intros x f [et sz l] a Hl Hne Ha Hlt. cbn [ts_et ts_l] in *. unfold ts_Add. cbn [ts_et ts_size ts_l].
  rewrite coerce_native by auto. cbn [obind].
  assert (L : forall m, (forall e, In e m -> In e l) -> add_loop x (S f) et a m = Ok m).
  { induction m as [|e m IH]; intros Hm; cbn [add_loop]; [reflexivity|].
    rewrite Forall_forall in Hl.
    destruct (Compare_scalar_spec x f et a e) as (c & -> & C); [auto|apply Hl, Hm; left; auto|].
    cbn [obind].
    pose proof (Hlt e (Hm e (in_eq _ _))) as Le.
    assert (Hc : c = -1).
    { assert (Ne : native et e) by (apply Hl, Hm; left; auto).
      destruct (scalar_order et a e a Ha Ne Ha) as (S1 & S2 & _ & S4 & _).
      destruct C as [[H _]|[[_ H]|[_ H]]]; [exact H| |].
      - destruct (S4 Le H).
      - destruct (S1 (S2 Le H)). }
    subst c. cbn. rewrite IH; [reflexivity|]. intros e' He'. apply Hm. right; auto. }
  destruct l as [|e l']; [congruence|]. rewrite L by auto. reflexivity.
Qed.
Print Assumptions C37_new_minimum_lost.
Theorem C37_minimum_refuted : exists h p, h = [SAdd (AInt32 2); SAdd (AInt32 1)] /\
  added h (AInt32 1) /\ ts_run ext0 1 (NewTSet I32 0) h = Ok p /\
  ts_Contains ext0 1 p (AInt32 1) = Ok false /\ ts_Len p = 1.
Proof.
  eexists _, _. split; [reflexivity|]. split.
  - exists [SAdd (AInt32 2)], (AInt32 1), []. repeat split. intros b [].
  - split; [vm_compute; reflexivity|]. split; vm_compute; reflexivity.
Qed.
Print Assumptions C37_minimum_refuted.
Theorem C37_len_refuted : exists p, p = NewTSet I32 7 /\ ts_Values p = [] /\ ts_Len p = 7.
Proof. exists (NewTSet I32 7). repeat split. Qed.
Print Assumptions C37_len_refuted.

(** ** C38 *)

(** Every history of calls that keeps the index contract, with data the element type accepts
    ([conv d] is the coerced datum), runs without panic and gives the results and contents of
    the sequence operations. *)
Theorem C38_sequence : forall x conv os p, IsEmptyType (tl_et p) = false ->
  lok (fun d => CoerceData x (tl_et p) d = Ok (conv d, true)) conv (tl_l p) os ->
  exists rs p', tl_run x p os = Ok (rs, p') /\ tl_et p' = tl_et p /\ lrun conv (tl_l p) os rs (tl_l p').
Proof. exact tl_history. Qed.
Print Assumptions C38_sequence.

(** Values of a scalar type are stored as they are. *)
Theorem C38_scalars_accepted : forall x et d, native et d -> CoerceData x et d = Ok (d, true).
Proof. exact coerce_native. Qed.
Print Assumptions C38_scalars_accepted.

(** Outside the contract the calls panic, except that Set beyond the end appends. *)
Theorem C38_out_of_range : forall x p,
  (forall i, ~ inb (tl_l p) i -> tl_At p i = Panic /\ tl_Delete p i = Panic) /\
  (forall i j, ~ inb (tl_l p) i \/ ~ inb (tl_l p) j -> tl_Swap p i j = Panic) /\
  (forall i d, ~ (0 <= i <= Z.of_nat (length (tl_l p))) -> tl_Insert p i d = Panic) /\
  (tl_l p = [] -> tl_Pop p = Panic) /\
  (forall i d v, IsEmptyType (tl_et p) = false -> CoerceData x (tl_et p) d = Ok (v, true) ->
     (i < 0 \/ i = Z.of_nat (length (tl_l p))) -> tl_Set x p i d = Panic) /\
  (forall i d v, IsEmptyType (tl_et p) = false -> CoerceData x (tl_et p) d = Ok (v, true) ->
     i > Z.of_nat (length (tl_l p)) -> tl_Set x p i d = tl_Push x p d).
Proof. exact tl_out_of_range. Qed.
Print Assumptions C38_out_of_range.

Definition list_ops : list lop :=
  [LPush (AInt16 1); LPush (AInt16 2); LInsert 1 (AInt16 9); LSwap 0 2; LSet 1 (AInt16 4); LDelete 0; LPop; LAt 0; LLen].
Lemma seq_ext : forall l l', (forall k, seq l k = seq l' k) -> l = l'.
Proof.
  induction l as [|a l IH]; destruct l' as [|b l']; intros H; [reflexivity| | |].
  - specialize (H 0). discriminate.
  - specialize (H 0). discriminate.
  - pose proof (H 0) as H0. injection H0 as <-. f_equal. apply IH. intros k.
    destruct (Z.ltb_spec k 0); [rewrite !seq_neg by lia; reflexivity|].
    specialize (H (k + 1)). unfold seq in *.
    replace (k + 1 <? 0) with false in H by lia. replace (k <? 0) with false by lia.
    replace (Z.to_nat (k + 1)) with (S (Z.to_nat k)) in H by lia. exact H.
Qed.
(** The specification determines the contents, so one run decides whether a history is kept. *)
Lemma lspec_det : forall conv l o r1 l1 r2 l2, lspec conv l o r1 l1 -> lspec conv l o r2 l2 -> r1 = r2 /\ l1 = l2.
Proof.
  intros conv l o r1 l1 r2 l2 H1 H2. destruct o; cbn [lspec] in *.
  - destruct H1 as [(v & E & ->) ->], H2 as [(w & F & ->) ->]. split; congruence.
  - destruct H1 as [-> H1], H2 as [-> H2]. split; [reflexivity|]. apply seq_ext. intros k. rewrite H1, H2. reflexivity.
  - destruct H1 as [-> H1], H2 as [-> H2]. split; [reflexivity|]. apply seq_ext. intros k. rewrite H1, H2. reflexivity.
  - destruct H1 as [(v & E & ->) H1], H2 as [(w & F & ->) H2]. split; [congruence|]. apply seq_ext. intros k. rewrite H1, H2. reflexivity.
  - destruct H1 as [-> H1], H2 as [-> H2]. split; [reflexivity|]. apply seq_ext. intros k. rewrite H1, H2. reflexivity.
  - destruct H1 as [-> H1], H2 as [-> H2]. split; [reflexivity|]. apply seq_ext. intros k. rewrite H1, H2. reflexivity.
  - destruct H1 as [-> H1], H2 as [-> H2]. split; [reflexivity|]. apply seq_ext. intros k. rewrite H1, H2. reflexivity.
  - destruct H1 as [-> ->], H2 as [-> ->]. auto.
Qed.
Lemma lok_step : forall x p os o r p', IsEmptyType (tl_et p) = false ->
  lpre (fun d => CoerceData x (tl_et p) d = Ok (d, true)) (tl_l p) o ->
  tl_step x p o = Ok (r, p') ->
  lok (fun d => CoerceData x (tl_et p') d = Ok (d, true)) (fun d => d) (tl_l p') os ->
  lok (fun d => CoerceData x (tl_et p) d = Ok (d, true)) (fun d => d) (tl_l p) (o :: os).
Proof.
  intros x p os o r p' He Hp Hs Hok. split; [exact Hp|]. intros r1 l1 S1.
  destruct (tl_step_ok x (fun d => d) p o He Hp) as (r2 & p2 & E2 & Et & S2).
  rewrite Hs in E2. injection E2 as <- <-. rewrite Et in Hok.
  destruct (lspec_det _ _ _ _ _ _ _ S1 S2) as [_ ->]. exact Hok.
Qed.
Example C38_ex : lok (fun d => CoerceData ext0 I16 d = Ok (d, true)) (fun d => d) [] list_ops /\
  tl_run ext0 (NewTList I16 0) list_ops =
    Ok ([RNone; RNone; RNone; RNone; RNone; RNone; RVal (AInt16 1); RVal (AInt16 4); RNum 1], MkTl I16 [AInt16 4]).
Proof.
  split; [|vm_compute; reflexivity].
  change (lok (fun d => CoerceData ext0 (tl_et (NewTList I16 0)) d = Ok (d, true)) (fun d => d) (tl_l (NewTList I16 0)) list_ops).
  unfold list_ops.
  repeat match goal with
  | |- lok (fun d => CoerceData ?x (tl_et ?p) d = _) _ _ (?o :: ?os) =>
    let s := eval vm_compute in (tl_step x p o) in
    match s with Ok (?r, ?p') => apply (lok_step x p os o r p') end;
    [reflexivity
    |cbn [lpre tl_l tl_et NewTList]; unfold inb; cbn [length];
     repeat match goal with |- _ /\ _ => split end; try lia; try discriminate; try (vm_compute; reflexivity)
    |vm_compute; reflexivity|]
  end.
  exact I.
Qed.

(** ** C39 *)

(** Key types: every scalar type.  After any history of Set calls whose keys are values of the
    key type and whose values the value type leaves as they are: Get of a key gives the last
    value set for it, Contains holds exactly for set keys, Keys lists the distinct keys, Values
    the values last set, Len counts them.  Get of an absent key gives (nil, false), except for BOOL keys; an empty
    BINARY-keyed map reports its size hint as Len, taken to be 0 here. *)
Theorem C39_finite_map_partial : forall x f kt vt size h a,
  scalar_type kt = true -> IsEmptyType vt = false ->
  (forall k v, In (k, v) h -> native kt k /\ CoerceData x vt v = Ok (v, true)) ->
  (forall t l, Permutation (x_order x t l) l) -> (kt = BINARY -> size = 0) ->
  exists p, tm_run x (S f) (NewTMap kt vt size) h = Ok p /\
    (forall k v, native kt k -> last_set h k v -> tm_Get x f p k = Ok (v, true) /\ tm_Contains x f p k = Ok true) /\
    (forall k, native kt k -> (forall k' v, In (k', v) h -> ~ scalar_eq k' k) ->
       tm_Contains x f p k = Ok false /\ (kt <> BOOL -> tm_Get x f p k = Ok (ANil, false))) /\
    (exists ks, tm_Keys x a p = Ok ks /\ tm_Len p = Z.of_nat (length ks) /\
       ForallOrdPairs (fun i j => ~ scalar_eq i j) ks /\ Forall (native kt) ks /\
       forall k, native kt k ->
         ((exists e, In e ks /\ scalar_eq e k) <-> (exists k' v, In (k', v) h /\ scalar_eq k' k))) /\
    (exists vs, tm_Values x a p = Ok vs /\ tm_Len p = Z.of_nat (length vs) /\
       forall v, In v vs <-> exists k, native kt k /\ last_set h k v).
Proof.
  intros x f kt vt size h a Hkt Hvt Hh Hx Hs.
  destruct (tm_history x f kt vt size h Hkt Hvt Hh) as (p & E & I & K1 & K2 & K3 & L & D).
  exists p. split; [exact E|]. pose proof I as I0.
  assert (Ab : forall k, native kt k -> (forall k' v, In (k', v) h -> ~ scalar_eq k' k) -> elookup (entries p) k = None).
  { intros k Hk N. destruct (elookup (entries p) k) as [v|] eqn:El; [|reflexivity].
    apply L in El; [|auto]. destruct El as (h1 & k' & h2 & -> & Q & _). exfalso. apply (N k' v); auto.
    apply in_or_app; right; left; auto. }
  destruct I0 as [I1 I2 I3 I4 I5].
  split; [|split; [|split]].
  - intros k v Hk Hl. apply L in Hl; [|auto]. destruct (get_ok x f p k) as [G C]; [auto|congruence|].
    rewrite G, C, Hl. auto.
  - intros k Hk N. destruct (get_ok x f p k) as [G C]; [auto|congruence|].
    rewrite G, C, (Ab k Hk N), K1. split; [reflexivity|]. intros Hb.
    replace (kt =? BOOL) with false by (symmetry; apply Z.eqb_neq; auto). reflexivity.
  - destruct (keys_ok x a p I Hx) as (Hlen & (ks & Ek & Pk) & _).
    { intros Eb _. rewrite K3. apply Hs. congruence. }
    exists ks. split; [exact Ek|]. split.
    { rewrite Hlen, (Permutation_length Pk), map_length. reflexivity. }
    assert (Fn : Forall (native kt) ks).
    { apply Forall_forall. intros e He. apply (Permutation_in _ Pk) in He.
      apply in_map_iff in He as (q & <- & Hq). rewrite Forall_forall, K1 in I3. apply I3, Hq. }
    assert (Nd : NoDup (map key ks)).
    { eapply Permutation_NoDup; [apply Permutation_map, Permutation_sym, Pk|]. rewrite map_map. exact I4. }
    split; [|split; [exact Fn|]].
    + clear -Fn Nd. induction ks as [|k ks IH]; [constructor|].
      inversion Fn; subst. cbn [map] in Nd. inversion Nd; subst. constructor; [|apply IH; auto].
      apply Forall_forall. intros k' Hk' Q. apply H3. apply in_map_iff. exists k'. split; [|auto].
      symmetry. apply (key_eq kt); auto. rewrite Forall_forall in H2. auto.
    + intros k Hk. rewrite Forall_forall in Fn. split.
      * intros (e & He & Q). assert (Hk' : In (key e) (ekeys (entries p))).
        { apply (Permutation_in _ Pk) in He. apply in_map_iff in He as (q & <- & Hq). unfold ekeys. apply in_map_iff. eauto. }
        apply D in Hk' as (k' & v & Hin & Ekk). exists k', v. split; [auto|].
        destruct (Hh _ _ Hin) as [Nk' _].
        assert (Ne : native kt e) by auto.
        apply (key_eq kt); auto. rewrite Ekk. apply (key_eq kt); auto.
      * intros (k' & v & Hin & Q). destruct (Hh _ _ Hin) as [Nk' _].
        assert (Hk' : In (key k') (ekeys (entries p))) by (apply D; eauto).
        unfold ekeys in Hk'. apply in_map_iff in Hk' as (q & Eq & Hq).
        exists (fst q). assert (Hf : In (fst q) ks).
        { apply (Permutation_in _ (Permutation_sym Pk)). apply in_map; auto. }
        split; [exact Hf|]. apply (key_eq kt); auto. rewrite Eq. apply (key_eq kt); auto.
  - destruct (keys_ok x a p I Hx) as (Hlen & _ & (vs & Ev & Pv)).
    { intros Eb _. rewrite K3. apply Hs. congruence. }
    exists vs. split; [exact Ev|]. split.
    { rewrite Hlen, (Permutation_length Pv), map_length. reflexivity. }
    intros v. rewrite Forall_forall, K1 in I3.
    assert (EL : forall es q, NoDup (ekeys es) -> In q es -> elookup es (fst q) = Some (snd q)).
    { induction es as [|[k' v'] es IH]; intros q Nd Hq; [destruct Hq|]. cbn [elookup].
      cbn [ekeys map fst] in Nd. inversion Nd; subst. destruct Hq as [<-|Hq].
      - cbn [fst snd]. rewrite str_eq_refl. reflexivity.
      - destruct (str_eq (key (fst q)) (key k')) eqn:Q; [|apply IH; auto].
        apply str_eq_iff in Q. exfalso. apply H1. rewrite <- Q. unfold ekeys. apply in_map_iff. eauto. }
    assert (EI : forall es k, elookup es k = Some v -> exists q, In q es /\ snd q = v).
    { induction es as [|[k' v'] es IH]; intros k Hk; cbn [elookup] in Hk; [discriminate|].
      destruct (str_eq _ _); [injection Hk as ->; exists (k', v); split; [left|]; auto|].
      destruct (IH k Hk) as (q & Hq & <-). exists q. split; [right|]; auto. }
    split.
    + intros Hv. apply (Permutation_in _ Pv) in Hv. apply in_map_iff in Hv as (q & <- & Hq).
      exists (fst q). split; [apply I3; auto|]. apply L; [apply I3; auto|]. apply EL; auto.
    + intros (k & Hk & Hl). apply L in Hl; [|auto]. apply EI in Hl as (q & Hq & <-).
      apply (Permutation_in _ (Permutation_sym Pv)). apply in_map; auto.
Qed.
Print Assumptions C39_finite_map_partial.

Definition map_sets (k1 k2 : any) : list (any * any) := [(k1, AInt16 1); (k2, AInt16 2); (k1, AInt16 3)].
Example C39_ex : exists p q,
  tm_run ext0 1 (NewTMap STRING I16 0) (map_sets (AStr [97]) (AStr [98])) = Ok p /\
  tm_Get ext0 0 p (AStr [97]) = Ok (AInt16 3, true) /\ tm_Get ext0 0 p (AStr [99]) = Ok (ANil, false) /\
  tm_Len p = 2 /\
  tm_run ext0 1 (NewTMap BINARY I16 0) (map_sets (ABytes [97]) (ABytes [98])) = Ok q /\
  tm_Get ext0 0 q (ABytes [97]) = Ok (AInt16 3, true) /\ tm_Keys ext0 0 q = Ok [ABytes [98]; ABytes [97]].
Proof.
  eexists _, _. split; [vm_compute; reflexivity|]. repeat (split; [vm_compute; reflexivity|]). vm_compute. reflexivity.
Qed.

(** A BOOL key that was never set is reported as found. *)
Theorem C39_bool_refuted : exists p, 
  tm_run ext0 1 (NewTMap BOOL I16 0) [(ABool true, AInt16 1)] = Ok p /\
  tm_Get ext0 0 p (ABool false) = Ok (ANil, true) /\ tm_Contains ext0 0 p (ABool false) = Ok false.
Proof. eexists. split; [vm_compute; reflexivity|]. split; vm_compute; reflexivity. Qed.
Print Assumptions C39_bool_refuted.
(** A map with MAP keys can be filled but not listed. *)
Theorem C39_map_keys_refuted : exists p,
  tm_run ext0 3 (NewTMap MAP I16 0) [(AMap 1 I16 I16 0 [] [], AInt16 1)] = Ok p /\ tm_Len p = 1 /\
  tm_Keys ext0 0 p = Panic.
Proof. eexists. split; [vm_compute; reflexivity|]. split; vm_compute; reflexivity. Qed.
Print Assumptions C39_map_keys_refuted.

(** ** C40 *)

(** Lookups by id and by (non-empty) name, for fields with distinct ids and names. *)
Theorem C40_lookups_partial : forall addr fs, NoDup (map f_id fs) -> NoDup (map f_name fs) ->
  let c := NewTFieldContainer addr fs in
  (forall f, In f fs ->
     FieldFromFieldId c (f_id f) = f /\ fc_At c (f_id f) = f /\
     FieldNameFromFieldId c (f_id f) = f_name f /\ fc_Contains c (KInt (f_id f)) = true /\
     fc_Contains c (KStr (f_name f)) = true /\
     (f_name f <> [] -> FieldFromFieldName c (f_name f) = f /\ FieldIdFromFieldName c (f_name f) = f_id f)) /\
  (forall id, ~ In id (map f_id fs) ->
     FieldFromFieldId c id = ANONYMOUS_FIELD /\ fc_At c id = ANONYMOUS_FIELD /\
     FieldNameFromFieldId c id = [] /\ fc_Contains c (KInt id) = false) /\
  (forall n, ~ In n (map f_name fs) ->
     FieldFromFieldName c n = ANONYMOUS_FIELD /\ FieldIdFromFieldName c n = -1 /\
     fc_Contains c (KStr n) = false) /\
  fc_Len c = Z.of_nat (length fs).
Proof. exact lookups. Qed.
Print Assumptions C40_lookups_partial.

Definition two_fields : list tfield := [F [97] I32 7; F [98] STRING (-3)].
Example C40_ex : NoDup (map f_id two_fields) /\ NoDup (map f_name two_fields) /\
  FieldFromFieldName (NewTFieldContainer 1 two_fields) [98] = F [98] STRING (-3) /\
  FieldFromFieldId (NewTFieldContainer 1 two_fields) 8 = ANONYMOUS_FIELD.
Proof.
  split; [|split; [|split; reflexivity]].
  - constructor; [cbn; intros [H|[]]; discriminate|]. constructor; [intros []|constructor].
  - constructor; [cbn; intros [H|[]]; discriminate|]. constructor; [intros []|constructor].
Qed.
(** At takes an id, not a position. *)
Theorem C40_position_refuted : exists fs, fs = two_fields /\
  nth_error fs 0 = Some (F [97] I32 7) /\ fc_At (NewTFieldContainer 1 fs) 0 = ANONYMOUS_FIELD.
Proof. exists two_fields. repeat split. Qed.
Print Assumptions C40_position_refuted.
(** A field with the empty name cannot be looked up by name. *)
Theorem C40_empty_name_refuted : exists f, f = F [] I32 1 /\
  FieldFromFieldName (NewTFieldContainer 1 [f]) (f_name f) = ANONYMOUS_FIELD /\
  FieldIdFromFieldName (NewTFieldContainer 1 [f]) (f_name f) = -1 /\
  fc_Contains (NewTFieldContainer 1 [f]) (KStr (f_name f)) = true.
Proof. exists (F [] I32 1). repeat split. Qed.
Print Assumptions C40_empty_name_refuted.

(** ** C41 *)

(** CompareTo is 0 exactly for equal id, type and name; Equals ignores the name, so comparing
    as 0 implies equality, and the converse holds for equal names. *)
Theorem C41_field_partial : forall p d, p <> FNil ->
  (field_CompareTo p (OField d) = (0, true) <-> (f_id p = f_id d /\ f_type p = f_type d /\ f_name p = f_name d)) /\
  (field_Equals p (OField d) = true <-> (f_id p = f_id d /\ f_type p = f_type d)) /\
  (field_CompareTo p (OField d) = (0, true) -> field_Equals p (OField d) = true) /\
  (f_name p = f_name d -> field_Equals p (OField d) = true -> field_CompareTo p (OField d) = (0, true)).
Proof.
  intros p d Hp. rewrite field_compare_0, (field_equals p d Hp). tauto.
Qed.
Print Assumptions C41_field_partial.
(** Container equality is symmetric when the fields of the left one have distinct (id, type). *)
Theorem C41_container_symmetric_partial : forall p d,
  (forall f, In f (fc_fields d) -> f <> FNil) -> (forall f, In f (fc_fields p) -> f <> FNil) ->
  NoDup (map ti (fc_fields p)) -> fc_Equals p (CCont d) = true -> fc_Equals d (CCont p) = true.
Proof. exact container_equals_sym. Qed.
Print Assumptions C41_container_symmetric_partial.
(** Containers are ordered by their numbers of fields first, are above nil, and compare as 0 exactly if they have the
    same fields, in any order. *)
Lemma cmp_loop_0 : forall b gs hs, NoDup (map f_id gs) -> NoDup (map f_name gs) ->
  ~ In FNil gs -> ~ In FNil hs -> ~ In ANONYMOUS_FIELD hs ->
  (fc_cmp_loop hs (NewTFieldContainer b gs) = (0, true) <-> incl hs gs).
Proof.
  intros b gs hs Ng Nn Hg. destruct (lookups b gs Ng Nn) as (L1 & L2 & _).
  assert (Inj : forall u v, u <> FNil -> v <> FNil -> f_id u = f_id v -> f_type u = f_type v -> f_name u = f_name v -> u = v).
  { intros [|n t i] [|n' t' i'] Hu Hv; cbn; congruence. }
  induction hs as [|f hs IH]; intros Hf Ha; cbn [fc_cmp_loop]; [split; [intros _ y []|reflexivity]|].
  assert (Nf : f <> FNil) by (intros ->; apply Hf; left; reflexivity).
  assert (E : field_CompareTo f (OField (fc_At (NewTFieldContainer b gs) (f_id f))) = (0, true) <-> In f gs).
  { rewrite field_compare_0. split.
    - intros (E1 & E2 & E3). destruct (in_dec Z.eq_dec (f_id f) (map f_id gs)) as [I|I].
      + apply in_map_iff in I as (g & Eg & Ig). destruct (L1 g Ig) as (_ & Eat & _). rewrite <- Eg, Eat in E2, E3.
        replace f with g; [exact Ig|]. apply Inj; auto. intros ->; contradiction.
      + destruct (L2 _ I) as (_ & Eat & _). rewrite Eat in E1, E2, E3. exfalso. apply Ha. left.
        apply Inj; auto. discriminate.
    - intros I. destruct (L1 f I) as (_ & Eat & _). rewrite Eat. auto. }
  destruct (field_CompareTo f _) as [c ok].
  destruct (negb ok || negb (c =? 0)) eqn:T.
  - split; [|intros I; assert (In f gs) as Q by (apply I; left; reflexivity); apply E in Q; injection Q as -> ->; discriminate].
    intros Q. injection Q as -> ->. discriminate.
  - assert (c = 0 /\ ok = true) as [-> ->] by (destruct ok; cbn in T; [split; [lia|reflexivity]|discriminate]).
    rewrite IH by (intros I; first [apply Hf; right; exact I|apply Ha; right; exact I]). split.
    + intros I y [<-|Hy]; [apply E; reflexivity|apply I, Hy].
    + intros I y Hy. apply I. right. exact Hy.
Qed.
Theorem C41_container_order : forall a b fs gs,
  NoDup (map f_id fs) -> NoDup (map f_name fs) -> NoDup (map f_id gs) -> NoDup (map f_name gs) ->
  ~ In FNil fs -> ~ In FNil gs -> ~ In ANONYMOUS_FIELD fs ->
  let p := NewTFieldContainer a fs in let d := NewTFieldContainer b gs in
  fc_CompareTo p CNil = (1, true) /\ fc_CompareTo p CNot = (0, false) /\ fc_CompareTo p (CCont p) = (0, true) /\
  (same_obj a b = false ->
    ((length fs < length gs)%nat -> fc_CompareTo p (CCont d) = (-1, true)) /\
    ((length gs < length fs)%nat -> fc_CompareTo p (CCont d) = (1, true)) /\
    (fc_CompareTo p (CCont d) = (0, true) <-> Permutation fs gs)).
Proof.
  intros a b fs gs Nf Nm Ng Nn Hf Hg Ha p d.
  destruct (container_fields a fs) as (Ap & Fp & _). fold p in Ap, Fp.
  destruct (container_fields b gs) as (Ad & Fd & _). fold d in Ad, Fd.
  split; [reflexivity|]. split; [reflexivity|]. split.
  { cbn [fc_CompareTo]. destruct (same_obj _ _); [reflexivity|]. unfold CompareInt. rewrite Z.ltb_irrefl. cbn [Z.eqb negb].
    rewrite Fp. apply cmp_loop_0; auto. apply incl_refl. }
  intros Ho. cbn [fc_CompareTo]. rewrite Ap, Ad, Ho. unfold fc_Len, CompareInt. rewrite Fp, Fd.
  split; [intros L|split; [intros L|]].
  - replace (Z.of_nat (length gs) <? Z.of_nat (length fs)) with false by lia.
    replace (Z.of_nat (length fs) <? Z.of_nat (length gs)) with true by lia. reflexivity.
  - replace (Z.of_nat (length gs) <? Z.of_nat (length fs)) with true by lia. reflexivity.
  - destruct (Z.of_nat (length gs) <? Z.of_nat (length fs)) eqn:L1;
      [cbn; split; [discriminate|intros P; apply Permutation_length in P; lia]|].
    destruct (Z.of_nat (length fs) <? Z.of_nat (length gs)) eqn:L2;
      [cbn; split; [discriminate|intros P; apply Permutation_length in P; lia]|].
    cbn [Z.eqb negb]. unfold d. rewrite cmp_loop_0 by auto. split.
    + intros I. apply NoDup_Permutation_bis; [eapply NoDup_map_inv, Nf|lia|exact I].
    + intros P y Hy. eapply Permutation_in; eauto.
Qed.
Print Assumptions C41_container_order.
Example C41_order_ex :
  let fs := [F [97] I32 1; F [98] I64 2] in let gs := [F [98] I64 2; F [97] I32 1] in
  NoDup (map f_id fs) /\ NoDup (map f_name gs) /\ ~ In FNil fs /\ ~ In ANONYMOUS_FIELD fs /\
  fc_CompareTo (NewTFieldContainer 1 fs) (CCont (NewTFieldContainer 2 gs)) = (0, true) /\
  fc_CompareTo (NewTFieldContainer 1 fs) (CCont (NewTFieldContainer 2 [F [97] I32 1])) = (1, true).
Proof.
  cbv zeta. cbn [map f_id f_name]. split; [repeat constructor; cbn; intuition congruence|].
  split; [repeat constructor; cbn; intuition congruence|].
  split; [cbn; intuition discriminate|]. split; [cbn; intuition discriminate|]. split; vm_compute; reflexivity.
Qed.
Example C41_ex :
  field_CompareTo (F [97] I32 7) (OField (F [97] I32 7)) = (0, true) /\
  field_CompareTo (F [97] I32 7) (OField (F [97] I32 8)) = (-1, true) /\
  fc_Equals (NewTFieldContainer 1 two_fields) (CCont (NewTFieldContainer 2 (rev two_fields))) = true /\
  NoDup (map ti two_fields).
Proof.
  repeat (split; [reflexivity|]).
  constructor; [cbn; intros [H|[]]; discriminate|]. constructor; [intros []|constructor].
Qed.
Theorem C41_name_refuted : exists p d, p = F [97] I32 1 /\ d = F [98] I32 1 /\
  field_Equals p (OField d) = true /\ field_CompareTo p (OField d) = (-1, true).
Proof. exists (F [97] I32 1), (F [98] I32 1). repeat split. Qed.
Print Assumptions C41_name_refuted.
Theorem C41_nil_refuted :
  exists p, p = FNil /\ field_Equals p (OField FNil) = false /\ field_CompareTo p (OField FNil) = (0, true) /\
    field_Equals p ONil = true /\ field_CompareTo p ONil = (1, true).
Proof. exists FNil. repeat split. Qed.
Print Assumptions C41_nil_refuted.
Theorem C41_container_refuted : exists p d,
  p = NewTFieldContainer 1 [F [97] I32 1; F [98] I32 1] /\ d = NewTFieldContainer 2 [F [97] I32 1; F [98] I32 2] /\
  fc_Equals p (CCont d) = true /\ fc_Equals d (CCont p) = false.
Proof. eexists _, _. split; [reflexivity|]. split; [reflexivity|]. split; vm_compute; reflexivity. Qed.
Print Assumptions C41_container_refuted.

(** ** C62 *)

Lemma mem_iff : forall t l, mem t l = true <-> In t l.
Proof.
  intros. unfold mem. rewrite existsb_exists. split.
  - intros (u & Hu & E). apply Z.eqb_eq in E. subst. exact Hu.
  - intros H. exists t. split; [auto|apply Z.eqb_refl].
Qed.

(** For every type id: the container predicates are the parts of IsContainer; empty, base,
    struct and container types are disjoint; integers are numeric, numeric and string types are
    base types; every base type other than UTF8 is numeric or a string but not both; and
    CoerceData has a case for an id exactly when it is one of the four kinds. *)
Theorem C62_predicates_partial : forall t,
  IsContainer t = (IsMap t || IsList t || IsSet t) /\
  (IsMap t = true -> IsList t = false /\ IsSet t = false) /\ (IsList t = true -> IsSet t = false) /\
  (IsEmptyType t = true -> IsBaseType t = false /\ IsStruct t = false /\ IsContainer t = false) /\
  (IsBaseType t = true -> IsStruct t = false /\ IsContainer t = false) /\
  (IsStruct t = true -> IsContainer t = false) /\
  (IsInt t = true -> IsNumericType t = true /\ IsStringType t = false) /\
  (IsNumericType t = true -> IsBaseType t = true) /\ (IsStringType t = true -> IsBaseType t = true) /\
  (t <> UTF8 -> IsBaseType t = true -> IsNumericType t = negb (IsStringType t)) /\
  ((IsEmptyType t || IsBaseType t || IsStruct t || IsContainer t = true) <->
     (forall x d, exists v ok, CoerceData x t d = Ok (v, ok))) /\
  ((IsEmptyType t || IsBaseType t || IsStruct t || IsContainer t = false) <->
     (forall x d, CoerceData x t d = Panic)).
Proof.
  intros t. destruct (known_bool t) as [K|(K1 & K2 & K3 & K4 & K)].
  - assert (C : forall x d, exists v ok, CoerceData x t d = Ok (v, ok)) by (intros; apply coerce_no_panic, K).
    assert (T : IsEmptyType t || IsBaseType t || IsStruct t || IsContainer t = true) by (known K; reflexivity).
    rewrite T.
    assert (P : ~ forall x d, CoerceData x t d = Panic).
    { intros P. destruct (C ext0 ANil) as (v & ok & E). rewrite (P ext0 ANil) in E. discriminate. }
    do 10 (split; [clear -K; known K; vm_compute; intuition congruence|]). split.
    + split; auto.
    + split; [discriminate|]. intros Q. destruct (P Q).
  - assert (NI : ~ known_type t).
    { intros Q. destruct (coerce_no_panic ext0 t ANil Q) as (v & ok & E). rewrite K in E. discriminate. }
    assert (F : forall l, incl l [STOP; VOID; BOOL; BYTE; DOUBLE; I16; I32; I64; STRING; STRUCT; MAP; SET; LIST; UTF8; UTF16; BINARY] -> mem t l = false).
    { intros l Hl. apply not_true_is_false. intros Q. apply mem_iff in Q. apply NI. apply Hl, Q. }
    assert (In0 : IsNumericType t = false) by (apply F; intros z; cbn; unfold ENUM, UTF8; tauto).
    assert (Is0 : IsStringType t = false) by (apply F; intros z; cbn; tauto).
    assert (Ii0 : IsInt t = false) by (apply F; intros z; cbn; tauto).
    assert (Im0 : IsMap t = false) by (apply F; intros z; cbn; tauto).
    assert (Il0 : IsList t = false) by (apply F; intros z; cbn; tauto).
    assert (Ie0 : IsSet t = false) by (apply F; intros z; cbn; tauto).
    rewrite K1, K2, K3, K4, In0, Is0, Ii0, Im0, Il0, Ie0.
    repeat match goal with |- _ /\ _ => split end; try discriminate; try reflexivity.
    + split; [discriminate|]. intros Q. destruct (Q ext0 ANil) as (v & ok & E). rewrite K in E. discriminate.
    + split; auto.
Qed.
Print Assumptions C62_predicates_partial.
Example C62_ex : IsContainer MAP = true /\ IsInt BYTE = true /\ IsBaseType BINARY = true /\
  CoerceData ext0 5 (AInt 1) = Panic.
Proof. repeat split. Qed.
(** ENUM is the same id as UTF8: it is both numeric and a string type. *)
Theorem C62_enum_refuted : exists t, t = ENUM /\ t = UTF8 /\ IsNumericType t = true /\ IsStringType t = true /\
  IsEnum t = true /\ CoerceData ext0 t (AInt32 65) = Ok (AStr [65], true).
Proof. exists UTF8. repeat split. Qed.
Print Assumptions C62_enum_refuted.

(** ** C63 *)

(** The test of the parse error is inverted: every decimal string with a value of 64 bits is
    rejected, and every other string is accepted, for all four integer types. *)
Theorem C63_inverted : forall x s,
  (forall p bits conv, int_target p bits conv ->
     (forall z, decimal s z -> in_s 64 z -> CoerceData x p (AStr s) = Ok (conv 0, false)) /\
     ((forall z, decimal s z -> ~ in_s 64 z) -> exists z, CoerceData x p (AStr s) = Ok (conv (wraps bits z), true))) /\
  (forall z, decimal s z -> in_s 64 z -> CoerceData x BYTE (AStr s) = Ok (AByte 0, false)) /\
  ((forall z, decimal s z -> ~ in_s 64 z) -> exists z, CoerceData x BYTE (AStr s) = Ok (AByte (wrapu 8 z), true)).
Proof.
  intros x s. split; [intros p bits conv T; exact (coerce_string_int x p bits conv s T)|].
  exact (coerce_string_byte x s).
Qed.
Print Assumptions C63_inverted.
(** Likewise for doubles, whatever strconv.ParseFloat returns. *)
Theorem C63_double_inverted : forall x s v,
  (x_parse_float x s = (v, None) -> CoerceData x DOUBLE (AStr s) = Ok (AF64 0, false)) /\
  (forall e, x_parse_float x s = (v, Some e) -> CoerceData x DOUBLE (AStr s) = Ok (AF64 v, true)).
Proof.
  intros x s v.
  assert (E : CoerceData x DOUBLE (AStr s) = Ok (coerce_double x (AStr s))) by reflexivity.
  rewrite E. cbn [coerce_double as_integer]. split; intros; rewrite H; reflexivity.
Qed.
Print Assumptions C63_double_inverted.
Example C63_ex : exists z, decimal [45; 49; 50] z /\ in_s 64 z /\ z = -12.
Proof.
  exists (-12). split; [|split; [unfold in_s; lia|reflexivity]].
  apply (proj1 (ParseInt_spec [45; 49; 50] 64 (-12) ltac:(lia))). vm_compute. reflexivity.
Qed.
Theorem C63_strings_refuted :
  exists s t, s = [49; 50] /\ t = [97; 98; 99] /\ decimal s 12 /\ (forall z, ~ decimal t z) /\
    CoerceData ext0 I32 (AStr s) = Ok (AInt32 0, false) /\ CoerceData ext0 I32 (AStr t) = Ok (AInt32 0, true).
Proof.
  exists [49; 50], [97; 98; 99]. split; [reflexivity|]. split; [reflexivity|].
  split; [apply (proj1 (ParseInt_spec [49; 50] 64 12 ltac:(lia))); vm_compute; reflexivity|].
  split; [|split; vm_compute; reflexivity].
  intros z D. inversion D; subst.
  match goal with H : Forall _ _ |- _ => inversion H; subst end. lia.
Qed.
Print Assumptions C63_strings_refuted.

(** ** C64 *)

(** A successful coercion is stable, unless a Numeric is coerced to DOUBLE, I16, I32 or I64. *)
Theorem C64_idempotent_partial : forall x p d v, bytes_ok d ->
  (is_numeric d = true -> ~ In p [DOUBLE; I16; I32; I64]) ->
  CoerceData x p d = Ok (v, true) -> CoerceData x p v = Ok (v, true).
Proof. intros x p d v Hb Hn H. apply coerced_fixed. eapply coerce_result; eauto. Qed.
Print Assumptions C64_idempotent_partial.

(** Every Go integer (and bool) whose number the target type can hold keeps it. *)
Theorem C64_value_kept : forall x d z, as_integer d = Some z ->
  (forall p bits conv, int_target p bits conv -> in_s bits z -> CoerceData x p d = Ok (conv z, true)) /\
  (in_u 8 z -> CoerceData x BYTE d = Ok (AByte z, true)).
Proof.
  intros x d z A. split; [intros p bits conv T R; exact (coerce_int_value x p bits conv d z T A R)|exact (coerce_byte_value x d z A)].
Qed.
Print Assumptions C64_value_kept.
(** [z] is the number [f] cut off at the point. *)
Definition truncates (f : spec_float) (z : Z) : Prop :=
  match f with
  | S754_zero _ => z = 0
  | S754_finite s m e =>
    exists a, 0 <= a /\ z = (if s then - a else a) /\
      (if 0 <=? e then a = Zpos m * 2 ^ e else a * 2 ^ (- e) <= Zpos m < (a + 1) * 2 ^ (- e))
  | _ => False
  end.
Lemma truncates_trunc : forall f z, truncates f z -> sf_trunc f = Some z.
Proof.
  intros [s| | |s m e] z H; cbn [truncates sf_trunc] in *; try contradiction; [now rewrite H|].
  destruct H as (a & Ha & -> & H). destruct (0 <=? e) eqn:E; [now subst|].
  replace (Zpos m / 2 ^ (- e)) with a; [reflexivity|].
  pose proof (Z.pow_pos_nonneg 2 (- e)) as P.
  apply Z.div_unique with (Zpos m - a * 2 ^ (- e)); lia.
Qed.
(** A double whose integer part the target type can hold becomes that integer. *)
Theorem C64_double : forall x b z, truncates (f64_of_bits b) z ->
  (forall p bits conv, int_target p bits conv -> in_s bits z -> CoerceData x p (AF64 b) = Ok (conv z, true)) /\
  (in_u 8 z -> CoerceData x BYTE (AF64 b) = Ok (AByte z, true)).
Proof.
  intros x b z T. apply truncates_trunc in T.
  assert (F : in_s 64 z -> f_to_int x b = z).
  { intros R. unfold f_to_int, i64_of_f64. rewrite T. unfold in_s in R.
    replace ((- 2 ^ 63 <=? z) && (z <? 2 ^ 63)) with true by lia. reflexivity. }
  split.
  - intros p bits conv I R.
    assert (L : in_s 64 z /\ 0 < bits) by (destruct I as [(-> & -> & ->)|[(-> & -> & ->)|(-> & -> & ->)]]; unfold in_s in *; lia).
    destruct I as [(-> & -> & ->)|[(-> & -> & ->)|(-> & -> & ->)]].
    + change (Ok (coerce_int x 16 AInt16 (AF64 b)) = Ok (AInt16 z, true)). cbn [coerce_int]. now rewrite F, wraps_id by (tauto || lia).
    + change (Ok (coerce_int x 32 AInt32 (AF64 b)) = Ok (AInt32 z, true)). cbn [coerce_int]. now rewrite F, wraps_id by (tauto || lia).
    + change (Ok (coerce_int x 64 AInt64 (AF64 b)) = Ok (AInt64 z, true)). cbn [coerce_int]. now rewrite F, wraps_id by (tauto || lia).
  - intros R. change (Ok (coerce_byte x (AF64 b)) = Ok (AByte z, true)). cbn [coerce_byte].
    rewrite F by (unfold in_u, in_s in *; lia). now rewrite wrapu_id.
Qed.
Print Assumptions C64_double.
(** What is false: the numbers that are zero, the texts "false", "0" and "", and no bytes or one
    zero byte; everything else of these kinds is true. *)
Definition falsy (d : any) : Prop :=
  match d with
  | AStr s => In s [[102; 97; 108; 115; 101]; [48]; []]
  | ABytes b => b = [] \/ b = [0]
  | AF64 b => exists s, f64_of_bits b = S754_zero s
  | _ => as_integer d = Some 0
  end.
Theorem C64_bool : forall x d,
  match d with AStr _ | ABytes _ => True | AF64 b => in_u 64 b | _ => as_integer d <> None end ->
  exists v, CoerceData x BOOL d = Ok (ABool v, true) /\ (v = false <-> falsy d).
Proof.
  intros x d H.
  assert (E : CoerceData x BOOL d = Ok (coerce_bool d)) by (destruct d; try reflexivity; now contradiction H).
  rewrite E. destruct d; cbn [as_integer] in H; try (now contradiction H); cbn [coerce_bool falsy as_integer];
    try (eexists; split; [reflexivity|]; destruct (Z.eqb_spec z 0); cbn; split; congruence).
  - eexists. split; [reflexivity|]. destruct b; split; congruence.
  - eexists. split; [reflexivity|]. unfold f64_nonzero, f64_of_bits, sf_of_bits, fl_exp, fl_man, fl_mag, fl_sign.
    change (2 ^ (11 + 52)) with (2 ^ 63).
    assert (M : bits mod 2 ^ 52 = (bits mod 2 ^ 63) mod 2 ^ 52).
    { replace (2 ^ 63) with (2 ^ 52 * 2 ^ 11) by reflexivity.
      rewrite Z.rem_mul_r by (discriminate || reflexivity). rewrite (Z.mul_comm (2 ^ 52)), Z.mod_add by discriminate.
      now rewrite Z.mod_mod by discriminate. }
    rewrite M. clear M. set (m := bits mod 2 ^ 63).
    assert (B : 0 <= m < 2 ^ 63) by (apply Z.mod_pos_bound; reflexivity). clearbody m. clear H E.
    pose proof (Z.div_mod m (2 ^ 52) ltac:(discriminate)) as D. pose proof (Z.mod_pos_bound m (2 ^ 52) eq_refl) as Dm.
    destruct (Z.eqb_spec m 0) as [->|N]; cbn [negb].
    + split; [intros _|reflexivity]. exists (2 ^ 63 <=? bits). reflexivity.
    + split; [discriminate|]. intros [s0 Q]. exfalso.
      destruct (m / 2 ^ 52 =? 2 ^ 11 - 1); [destruct (m mod 2 ^ 52 =? 0); discriminate|].
      destruct (Z.eqb_spec (m / 2 ^ 52) 0) as [E0|E0].
      * destruct (m mod 2 ^ 52) eqn:Em; [rewrite E0 in D; apply N; exact D|discriminate|destruct Dm as [Dm _]; now apply Dm].
      * destruct (2 ^ 52 + m mod 2 ^ 52); discriminate.
  - eexists. split; [reflexivity|]. unfold str_bool, s_false. cbn [In].
    destruct (str_eq s _) eqn:E1; [apply str_eq_iff in E1; subst; cbn; split; auto|].
    destruct (str_eq s [48]) eqn:E2; [apply str_eq_iff in E2; subst; cbn; split; auto|].
    destruct s as [|y s]; [cbn; split; auto|]. cbn [length Nat.eqb orb negb]. split; [discriminate|].
    intros [Q|[Q|[Q|[]]]]; try discriminate; rewrite <- Q in *; [now rewrite str_eq_refl in E1|now rewrite str_eq_refl in E2].
  - eexists. split; [reflexivity|]. destruct s as [|y [|z s]]; cbn.
    + split; auto.
    + destruct (Z.eqb_spec y 0); cbn; split; auto; try discriminate; [subst; auto|]. intros [Q|Q]; congruence.
    + split; [discriminate|]. intros [Q|Q]; discriminate.
Qed.
Print Assumptions C64_bool.
(** Of the Numerics, BYTE keeps those it can hold; I16, I32, I64 and DOUBLE keep none. *)
Theorem C64_numeric : forall x a iv dv s,
  (in_u 8 iv -> CoerceData x BYTE (ANum a iv dv s) = Ok (AByte iv, true)) /\
  (forall p bits conv, int_target p bits conv -> forall z,
     CoerceData x p (ANum a iv dv s) <> Ok (conv z, true)) /\
  (forall b, CoerceData x DOUBLE (ANum a iv dv s) <> Ok (AF64 b, true)).
Proof.
  intros x a iv dv s. split; [|split].
  - intros H. cbn. rewrite wrapu_id by exact H. reflexivity.
  - intros p bits conv T z E. destruct T as [(-> & -> & ->)|[(-> & -> & ->)|(-> & -> & ->)]]; discriminate.
  - intros b E. discriminate.
Qed.
Print Assumptions C64_numeric.
Example C64_ex :
  CoerceData ext0 I16 (AUint64 40000) = Ok (AInt16 (-25536), true) /\
  CoerceData ext0 I16 (AInt16 (-25536)) = Ok (AInt16 (-25536), true) /\
  CoerceData ext0 I64 (AUint16 65535) = Ok (AInt64 65535, true) /\
  as_integer (AUint16 65535) = Some 65535 /\ bytes_ok (ABytes [1; 2]) /\
  truncates (f64_of_bits 0xc00a000000000000) (-3) /\ CoerceData ext0 I16 (AF64 0xc00a000000000000) = Ok (AInt16 (-3), true) /\
  CoerceData ext0 BOOL (AStr [48]) = Ok (ABool false, true) /\ CoerceData ext0 BOOL (AStr [49]) = Ok (ABool true, true) /\
  CoerceData ext0 BOOL (AF64 0x8000000000000000) = Ok (ABool false, true).
Proof.
  repeat match goal with |- _ /\ _ => split end; 
    try match goal with |- truncates _ _ => idtac | _ => vm_compute; reflexivity end; [repeat constructor; lia|].
  change (exists a, 0 <= a /\ -3 = - a /\ a * 2 ^ 51 <= 7318349394477056 < (a + 1) * 2 ^ 51).
  exists 3. split; [lia|]. split; [reflexivity|]. vm_compute. split; [discriminate|reflexivity].
Qed.
(** A Numeric of value 5 coerces to the bool true under I16, and that to the int16 1. *)
Theorem C64_numeric_refuted : exists d v, d = ANum 1 5 0 [] /\ v = ABool true /\
  CoerceData ext0 I16 d = Ok (v, true) /\ CoerceData ext0 I16 v = Ok (AInt16 1, true).
Proof. eexists _, _. split; [reflexivity|]. split; [reflexivity|]. split; vm_compute; reflexivity. Qed.
Print Assumptions C64_numeric_refuted.
