(** C37 and C39 for element and key types that are lists or sets, and every history of a set. *)
From Coq Require Import ZArith List Bool Lia Sorted.
From Coq Require Import ZifyBool ZifyNat.
From Verif Require Import Base Arith F64 Strconv TField GoVal Compare CompareProofs TList TSet TMap ListOrder
  PropContainers PropOrder ContainerKeys WfDec.
Import ListNotations.
Open Scope Z_scope.

(** ** C37 *)

(** Every history of Add and Remove, over every scalar element type and over lists and sets of
    any depth: Contains and Values describe exactly the elements [stored], which differ from
    the elements added and not removed by the additions below all elements present; Values is
    strictly descending and Len counts it, an empty set giving its size hint. *)
Theorem C37_every_history : forall x hp f et size h,
  (forall o, In o h -> lval hp et (op_val o) /\ (depth (op_val o) < f)%nat) ->
  exists p, ts_run x f (NewTSet et size) h = Ok p /\
    (forall v, lval hp et v -> (depth v < f)%nat ->
       exists b, ts_Contains x f p v = Ok b /\ (b = true <-> stored (lval hp et) (rev h) v)) /\
    (forall v, lval hp et v ->
       ((exists e, In e (ts_Values p) /\ veq e v) <-> stored (lval hp et) (rev h) v)) /\
    StronglySorted (fun a b => vlt b a) (ts_Values p) /\ Forall (lval hp et) (ts_Values p) /\
    ts_Len p = (if (length (ts_Values p) =? 0)%nat then size else Z.of_nat (length (ts_Values p))).
Proof.
  intros x hp f et size h Hh. destruct (set_history hp et x f size h Hh) as (p & E & I & Sz & K).
  exists p. split; [exact E|]. split; [|split; [|split; [|split]]].
  - intros v Hv Hf. destruct (contains_set hp et x f p v I Hv Hf) as (b & Eb & B). exists b. split; [exact Eb|].
    rewrite B. apply K, Hv.
  - exact K.
  - apply (si_sorted hp et p I).
  - apply (si_dom hp et p I).
  - unfold ts_Len, ts_Values, set_Len. rewrite Sz. destruct (length (ts_l p) =? 0)%nat; reflexivity.
Qed.
Print Assumptions C37_every_history.

Definition lst (a : Z) (l : list Z) : any := AList a I32 (map AInt32 l).
Definition heap1 (a : Z) : any :=
  if a =? 1 then lst 1 [5; 7] else if a =? 2 then lst 2 [5; 8] else if a =? 3 then lst 3 [1; 1]
  else if a =? 4 then lst 4 [5; 8] else lst a [9; 9; 9].
Lemma heap1_ok : forall a, In a [1; 2; 3; 4; 5] -> lval heap1 LIST (heap1 a) /\ (depth (heap1 a) < 2)%nat.
Proof.
  intros a H. cbn [In] in H. repeat destruct H as [<-|H]; try contradiction; (split; [|vm_compute; lia]); cbn -[Z.ltb];
  unfold lst; cbn [map]; solve_lval.
Qed.
(** A set of lists: [5 7], [5 8] and [9 9 9] are kept, [1 1] is dropped, the second [5 8] is
    recognised, and removing it removes the first. *)
Example C37_every_history_ex :
  let h := [SAdd (heap1 1); SAdd (heap1 2); SAdd (heap1 3); SAdd (heap1 5); SAdd (heap1 4)] in
  (forall o, In o h -> lval heap1 LIST (op_val o) /\ (depth (op_val o) < 2)%nat) /\
  ts_run ext0 2 (NewTSet LIST 0) h = Ok (MkTs LIST 0 [heap1 5; heap1 2; heap1 1]) /\
  stored (lval heap1 LIST) (rev h) (heap1 4) /\ ~ stored (lval heap1 LIST) (rev h) (heap1 3) /\
  ts_run ext0 2 (NewTSet LIST 0) (h ++ [SRemove (heap1 4)]) = Ok (MkTs LIST 0 [heap1 5; heap1 1]).
Proof.
  intros h.
  assert (Hh : forall o, In o h -> lval heap1 LIST (op_val o) /\ (depth (op_val o) < 2)%nat).
  { intros o Ho. unfold h in Ho. cbn [In] in Ho.
    repeat destruct Ho as [<-|Ho]; try contradiction; apply heap1_ok; cbn; auto 10. }
  split; [exact Hh|]. split; [vm_compute; reflexivity|].
  destruct (C37_every_history ext0 heap1 2 LIST 0 h Hh) as (p & E & C & _).
  assert (P : p = MkTs LIST 0 [heap1 5; heap1 2; heap1 1]).
  { assert (E2 : ts_run ext0 2 (NewTSet LIST 0) h = Ok (MkTs LIST 0 [heap1 5; heap1 2; heap1 1])) by (vm_compute; reflexivity).
    congruence. }
  subst p. split; [|split; [|vm_compute; reflexivity]].
  - destruct (heap1_ok 4) as [A B]; [cbn; auto 10|]. destruct (C (heap1 4) A B) as (b & Eb & Q). apply Q.
    assert (E2 : ts_Contains ext0 2 (MkTs LIST 0 [heap1 5; heap1 2; heap1 1]) (heap1 4) = Ok true) by (vm_compute; reflexivity).
    congruence.
  - destruct (heap1_ok 3) as [A B]; [cbn; auto 10|]. destruct (C (heap1 3) A B) as (b & Eb & Q). rewrite <- Q.
    assert (E2 : ts_Contains ext0 2 (MkTs LIST 0 [heap1 5; heap1 2; heap1 1]) (heap1 3) = Ok false) by (vm_compute; reflexivity).
    congruence.
Qed.

(** ** C39 *)

(** Maps whose keys are lists or sets of any depth, two keys being the same if they have the
    same elements: Get gives the last value set, Contains holds exactly for set keys, Keys
    lists the distinct keys in descending order, Values their values in the same order, and
    Len counts them.  A map nothing was set in gives its size hint as Len, taken to be 0. *)
Theorem C39_container_keys : forall x hp f kt vt size h a, In kt [LIST; SET] -> IsEmptyType vt = false ->
  (forall k v, In (k, v) h -> lval hp kt k /\ (depth k < f)%nat /\ CoerceData x vt v = Ok (v, true)) ->
  (h = [] -> size = 0) ->
  exists p, tm_run x f (NewTMap kt vt size) h = Ok p /\
    (forall k v, lval hp kt k -> last_set_eq h k v ->
       tm_Get x f p k = Ok (v, true) /\ tm_Contains x f p k = Ok true) /\
    (forall k, lval hp kt k -> (forall k' v, In (k', v) h -> ~ veq k' k) ->
       tm_Get x f p k = Ok (ANil, false) /\ tm_Contains x f p k = Ok false) /\
    exists ks vs, tm_Keys x a p = Ok ks /\ tm_Values x a p = Ok vs /\
      tm_Len p = Z.of_nat (length ks) /\ length vs = length ks /\
      StronglySorted (fun i j => vlt j i) ks /\ Forall (lval hp kt) ks /\
      (forall k, lval hp kt k -> ((exists e, In e ks /\ veq e k) <-> exists k' v, In (k', v) h /\ veq k' k)) /\
      (forall k v, In (k, v) (combine ks vs) -> last_set_eq h k v).
Proof.
  intros x hp f kt vt size h a Hkt Hvt Hh Hs.
  assert (Kt : kt = LIST \/ kt = SET) by (cbn in Hkt; intuition).
  destruct (map_history hp kt Kt x f vt size h Hvt Hh) as (p & E & I & K1 & K2 & Sb & K).
  exists p. split; [exact E|]. destruct I as [I1 I2 I3].
  assert (Hd : forall e, In e (tm_l p) -> (depth (fst e) < f)%nat).
  { intros [k v] He. apply (Hh k v), Sb, He. }
  assert (Lk : forall k, lval hp kt k -> ((exists w, klookup (tm_l p) k w) <-> exists k' v, In (k', v) h /\ veq k' k)).
  { intros k Hk. split.
    - intros (w & H). apply K in H as (h1 & k' & h2 & -> & V & _); [|auto]. exists k', w. split; [apply in_or_app; right; left; auto|auto].
    - intros (k' & v & Hin & V). clear -Hin V Hk Hh K.
      assert (L : exists w, last_set_eq h k w).
      { clear K. induction h as [|[k2 v2] h IH] using rev_ind; [destruct Hin|].
        destruct (Hh k2 v2) as (D2 & _); [apply in_or_app; right; left; auto|].
        destruct (veq_dec hp kt k2 k D2 Hk) as [V2|V2].
        - exists v2. apply last_set_eq_snoc. auto.
        - apply in_app_or in Hin as [Hin|[Q|[]]]; [|injection Q as -> ->; tauto].
          destruct IH as (w & W); [intros; apply Hh, in_or_app; auto|auto|]. exists w. apply last_set_eq_snoc. auto. }
      destruct L as (w & L). exists w. apply K; auto. }
  assert (Len : tm_Len p = Z.of_nat (length (tm_l p))).
  { unfold tm_Len, map_Len. destruct (tm_l p) as [|e l] eqn:El; [|reflexivity]. cbn [length Nat.eqb negb].
    assert (N : h = []).
    { destruct h as [|[k v] h']; [reflexivity|]. exfalso. destruct (Hh k v (or_introl eq_refl)) as (Dk & _).
      destruct (proj2 (Lk k Dk)) as (w & []); exists k, v; split; [left; auto|]. apply (E_refl hp kt); auto. }
    rewrite I1, K2, (Hs N). destruct Kt as [-> | ->]; reflexivity. }
  split; [|split].
  - intros k v Hk L. apply K in L; [|auto]. apply (get_lval hp kt Kt x f p k); auto. constructor; auto.
  - intros k Hk N. apply (get_lval hp kt Kt x f p k); auto; [constructor; auto|].
    intros w Hw. destruct (proj1 (Lk k Hk)) as (k' & v & Hin & V); [eauto|]. exact (N k' v Hin V).
  - assert (F : forall vs, length vs = length (tm_l p) -> fill (tm_Len p) vs = Ok vs).
    { intros vs El. rewrite Len, <- El. unfold fill. replace (Z.of_nat (length vs) <? 0) with false by lia.
      rewrite Z.ltb_irrefl, Nat2Z.id, Nat.sub_diag. cbn [repeat]. rewrite app_nil_r. reflexivity. }
    assert (M : forall t, map_entries x t (tm_kt p) (tm_l p) (tm_b p) = Ok (tm_l p)).
    { intros t. rewrite I1. destruct Kt as [-> | ->]; reflexivity. }
    exists (map fst (tm_l p)), (map snd (tm_l p)).
    split. { unfold tm_Keys, map_Keys. rewrite M. cbn [obind]. apply F, map_length. }
    split. { unfold tm_Values, map_Values. rewrite M. cbn [obind]. apply F, map_length. }
    rewrite !map_length. split; [exact Len|]. split; [reflexivity|].
    assert (Fd : Forall (lval hp kt) (map fst (tm_l p))).
    { apply Forall_forall. intros k Hk. apply in_map_iff in Hk as (e & <- & He). rewrite Forall_forall in I2. auto. }
    split; [|split; [exact Fd|split]].
    + clear -I3. induction I3 as [|e l S IH Fl]; cbn [map]; constructor; [auto|].
      apply Forall_forall. intros k Hk. apply in_map_iff in Hk as (e' & <- & He). rewrite Forall_forall in Fl. apply (Fl e' He).
    + intros k Hk. rewrite <- (Lk k Hk). split.
      * intros (e & He & V). apply in_map_iff in He as ([k' w] & <- & He). cbn [fst] in *. exists w.
        assert (Dk : lval hp kt k') by (rewrite Forall_forall in I2; apply (I2 _ He)).
        apply (proj1 (klookup_veq hp kt (tm_l p) k' k w Dk Hk I2 V)). apply (in_klookup hp kt); auto.
      * intros (w & H). apply (klookup_in hp kt) in H as (k' & He & V). exists k'. split; [|auto].
        apply in_map_iff. exists (k', w). split; [reflexivity|exact He].
    + intros k v Hin.
      assert (He : In (k, v) (tm_l p)).
      { clear -Hin. induction (tm_l p) as [|[k' v'] l IH]; [destruct Hin|]. cbn [map combine fst snd] in Hin.
        destruct Hin as [Q|Hin]; [left; auto|right; auto]. }
      rewrite Forall_forall in I2. pose proof (I2 _ He) as Dk. cbn [fst] in Dk.
      apply K; auto. apply (in_klookup hp kt); auto. apply Forall_forall; auto.
Qed.
Print Assumptions C39_container_keys.
Example C39_container_keys_ex :
  let h := [(heap1 1, AInt32 10); (heap1 2, AInt32 20); (heap1 3, AInt32 30); (heap1 4, AInt32 40)] in
  In LIST [LIST; SET] /\ IsEmptyType I32 = false /\
  (forall k v, In (k, v) h -> lval heap1 LIST k /\ (depth k < 2)%nat /\ CoerceData ext0 I32 v = Ok (v, true)) /\
  tm_run ext0 2 (NewTMap LIST I32 0) h =
    Ok (MkTm LIST I32 0 [(heap1 4, AInt32 40); (heap1 1, AInt32 10); (heap1 3, AInt32 30)] []) /\
  tm_Get ext0 2 (MkTm LIST I32 0 [(heap1 4, AInt32 40); (heap1 1, AInt32 10); (heap1 3, AInt32 30)] []) (heap1 2) =
    Ok (AInt32 40, true).
Proof.
  intros h. split; [cbn; auto|]. split; [reflexivity|]. split.
  - intros k v H. unfold h in H. cbn [In] in H.
    repeat (destruct H as [Q|H]; [injection Q as <- <-; split; [|split; [|reflexivity]]; apply heap1_ok; cbn; auto 10|]).
    destruct H.
  - split; vm_compute; reflexivity.
Qed.
