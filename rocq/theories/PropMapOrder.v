(** C115: the comparison of maps. *)
From Coq Require Import ZArith List Bool Lia Permutation.
From Coq Require Import ZifyBool ZifyNat.
From Verif Require Import Base Arith F64 Strconv TField GoVal Compare CompareProofs TList TSet ListOrder MapCompare PropGen WfDec.
Import ListNotations.
Open Scope list_scope.
Open Scope Z_scope.

(** ** Specification *)

Definition go_keys : list Z := [BOOL; BYTE; I16; I32; I64; DOUBLE; STRING; UTF8; UTF16].
Definition list_keys : list Z := [BINARY; LIST; SET].
(** A map object and its entries: in a Go map, or, for the other key types, in a list.  Keys and values are scalars, lists and
    sets, nested to any depth; [h] tells which object lives at an address. *)
Definition entries_ok (h : Z -> any) (kt vt : Z) (es : list (any * any)) : Prop :=
  Forall (fun e => lval h kt (fst e) /\ lval h vt (snd e)) es.
Inductive mval (h : Z -> any) : Z -> Z -> any -> list (any * any) -> Prop :=
| mv_go a kt vt n b : In kt go_keys -> (0 < a -> h a = AMap a kt vt n [] b) -> entries_ok h kt vt b ->
    mval h kt vt (AMap a kt vt n [] b) b
| mv_list a kt vt n l : In kt list_keys -> (0 < a -> h a = AMap a kt vt n l []) -> entries_ok h kt vt l -> (l = [] -> n = 0) ->
    mval h kt vt (AMap a kt vt n l []) l.

(** What one iteration gives: all of it, in any order for a Go map. *)
Definition seen (kt : Z) (all s : list any) : Prop :=
  if mem kt go_keys then Permutation all s else s = all.

(** Fewer entries first, then by the keys, then by the values. *)
Definition before (k1 v1 k2 v2 : list any) : Prop :=
  (length k1 < length k2)%nat \/
  length k1 = length k2 /\ (lexl vlt veq k1 k2 \/ Forall2 veq k1 k2 /\ lexl vlt veq v1 v2).
Definition alike (k1 v1 k2 v2 : list any) : Prop := Forall2 veq k1 k2 /\ Forall2 veq v1 v2.
Definition fits_fuel (f : nat) (es : list (any * any)) : Prop :=
  forall e, In e es -> (depth (fst e) < f)%nat /\ (depth (snd e) < f)%nat.

(** ** Proofs *)
Lemma f2_len : forall l l' : list any, Forall2 veq l l' -> length l = length l'.
Proof. intros l l' X. induction X; cbn; congruence. Qed.
Definition ks (x : ext) (m : any) : list any :=
  match m with AMap a kt _ _ l b => if mem kt go_keys then map fst (x_order x (2 * a) b) else map fst l | _ => [] end.
Definition vs (x : ext) (m : any) : list any :=
  match m with AMap a kt _ _ l b => if mem kt go_keys then map snd (x_order x (2 * a + 1) b) else map snd l | _ => [] end.

Lemma go_mem : forall kt, In kt go_keys -> mem kt go_keys = true /\ mem kt [STOP; VOID] = false.
Proof. intros kt H. cbn in H. repeat (destruct H as [<-|H]; [split; reflexivity|]). destruct H. Qed.
Lemma list_mem : forall kt, In kt list_keys -> mem kt go_keys = false /\ mem kt [STOP; VOID] = false /\ mem kt [BINARY; STRUCT; LIST; SET] = true.
Proof. intros kt H. cbn in H. repeat (destruct H as [<-|H]; [repeat split; reflexivity|]). destruct H. Qed.

Lemma map_seen : forall x h kt vt m e, orders x -> mval h kt vt m e -> seen kt (map fst e) (ks x m) /\ seen kt (map snd e) (vs x m).
Proof.
  intros x h kt vt m e Ho H. unfold seen. destruct H as [a kt vt n b K _ _|a kt vt n l K _ _ _]; cbn [ks vs].
  - rewrite (proj1 (go_mem _ K)). split; apply Permutation_map, Ho.
  - rewrite (proj1 (list_mem _ K)). split; reflexivity.
Qed.
Lemma seen_in : forall kt all s, seen kt all s -> (forall v, In v s -> In v all) /\ length s = length all.
Proof.
  intros kt all s H. unfold seen in H. destruct (mem kt go_keys).
  - split; [intros v I; eapply Permutation_in; [symmetry; exact H|exact I]|symmetry; apply Permutation_length, H].
  - subst s. auto.
Qed.

Lemma fill_all : forall l, fill (Z.of_nat (length l)) l = Ok l.
Proof.
  intros l. unfold fill. replace (Z.of_nat (length l) <? 0) with false by lia. rewrite Z.ltb_irrefl.
  replace (Z.to_nat (Z.of_nat (length l)) - length l)%nat with 0%nat by lia. cbn [repeat]. now rewrite app_nil_r.
Qed.
Lemma map_parts : forall x h kt vt m e, orders x -> mval h kt vt m e ->
  exists a n l b, m = AMap a kt vt n l b /\ map_Len kt n l b = Z.of_nat (length e) /\
    map_Keys x a kt n l b = Ok (ks x m) /\ map_Values x a kt n l b = Ok (vs x m).
Proof.
  intros x h kt vt m e Ho H. pose proof (map_seen x h kt vt m e Ho H) as [Sk Sv].
  apply seen_in in Sk. apply seen_in in Sv. destruct Sk as [_ Lk], Sv as [_ Lv]. rewrite map_length in Lk, Lv.
  destruct H as [a kt vt n b K _ _|a kt vt n l K _ _ Hn].
  - exists a, n, [], b. split; [reflexivity|]. destruct (go_mem _ K) as [M1 M2].
    assert (Ml : map_Len kt n [] b = Z.of_nat (length b)).
    { unfold map_Len. cbn [length Nat.eqb negb]. rewrite M2. unfold go_keys in M1. now rewrite M1. }
    unfold map_Keys, map_Values, map_entries. rewrite Ml, M2. unfold go_keys in M1. rewrite M1. cbn [obind].
    cbn [ks vs] in *. unfold go_keys in *. rewrite M1 in *.
    split; [reflexivity|]. rewrite <- Lk at 1. rewrite <- Lv. split; apply fill_all.
  - exists a, n, l, []. split; [reflexivity|]. destruct (list_mem _ K) as (M1 & M2 & M3).
    assert (Ml : map_Len kt n l [] = Z.of_nat (length l)).
    { unfold map_Len. destruct l as [|e l]; [|reflexivity]. cbn [length Nat.eqb negb]. rewrite M2. unfold go_keys in M1. rewrite M1.
      now rewrite Hn. }
    unfold map_Keys, map_Values, map_entries. rewrite Ml, M2. unfold go_keys in M1. rewrite M1, M3. cbn [obind].
    cbn [ks vs] in *. unfold go_keys in *. rewrite M1 in *.
    split; [reflexivity|]. rewrite <- Lk at 1. rewrite <- Lv. split; apply fill_all.
Qed.

Lemma entries_seen : forall x h kt vt m e, orders x -> mval h kt vt m e ->
  Forall (lval h kt) (ks x m) /\ Forall (lval h vt) (vs x m) /\ length (ks x m) = length e /\ length (vs x m) = length e.
Proof.
  intros x h kt vt m e Ho H. pose proof (map_seen x h kt vt m e Ho H) as [Sk Sv].
  assert (E : entries_ok h kt vt e) by (destruct H; assumption). unfold entries_ok in E. rewrite Forall_forall in E.
  apply seen_in in Sk. apply seen_in in Sv. destruct Sk as [Ik Lk], Sv as [Iv Lv]. rewrite map_length in Lk, Lv.
  split; [|split; [|auto]]; apply Forall_forall; intros v I.
  - apply Ik, in_map_iff in I. destruct I as (u & <- & I). apply E, I.
  - apply Iv, in_map_iff in I. destruct I as (u & <- & I). apply E, I.
Qed.
Lemma fuel_seen : forall x h kt vt m e f, orders x -> mval h kt vt m e -> fits_fuel f e ->
  (forall v, In v (ks x m) -> (depth v < f)%nat) /\ (forall v, In v (vs x m) -> (depth v < f)%nat).
Proof.
  intros x h kt vt m e f Ho H F. pose proof (map_seen x h kt vt m e Ho H) as [Sk Sv].
  apply seen_in in Sk. apply seen_in in Sv. destruct Sk as [Ik _], Sv as [Iv _].
  split; intros v I; [apply Ik in I|apply Iv in I]; apply in_map_iff in I; destruct I as (u & <- & I); apply F, I.
Qed.

Lemma arrays_decide : forall x h f t l l', Forall (lval h t) l -> Forall (lval h t) l' -> length l = length l' ->
  (forall v, In v l -> (depth v < f)%nat) ->
  exists c, CompareValueArrays (Compare x f t) l l' = Ok (c, true) /\
    (c = -1 /\ lexl vlt veq l l' \/ c = 0 /\ Forall2 veq l l' \/ c = 1 /\ lexl vlt veq l' l).
Proof.
  intros x h f t l l' D D' L F. unfold CompareValueArrays. rewrite L. unfold CompareInt. rewrite Z.ltb_irrefl. cbn [Z.eqb negb].
  apply (cmp_loop_decides _ (lval h t)); auto.
  - eapply Forall_impl; [|exact D]. apply lval_laws.
  - intros v w Hv Hw. rewrite Forall_forall in D, D'. apply Compare_lval with (h := h); auto.
Qed.
Lemma arrays_refl : forall h t l, Forall (lval h t) l -> Forall2 veq l l.
Proof.
  intros h t l D. destruct (lex_laws (lval h t) l D) with (l' := l) (l'' := l) as (_ & _ & _ & _ & A & _); auto.
  eapply Forall_impl; [|exact D]. apply lval_laws.
Qed.

Lemma Compare_maps : forall x f a b k v n l m k' v' n' l' m', same_obj a b = false ->
  Compare x (S f) MAP (AMap a k v n l m) (AMap b k' v' n' l' m') =
  compare_coerced x (Compare x f) MAP (AMap a k v n l m) (AMap b k' v' n' l' m').
Proof.
  intros. cbn [Compare]. change (quick_eq MAP (AMap a k v n l m) (AMap b k' v' n' l' m')) with (Ok (same_obj a b)). cbn [obind].
  rewrite H. cbn [is_nil]. change (CoerceData x MAP (AMap a k v n l m)) with (Ok (AMap a k v n l m, true)).
  change (CoerceData x MAP (AMap b k' v' n' l' m')) with (Ok (AMap b k' v' n' l' m', true)). cbn [obind andb negb].
  change (quick_eq MAP (AMap a k v n l m) (AMap b k' v' n' l' m')) with (Ok (same_obj a b)). cbn [obind].
  rewrite H. reflexivity.
Qed.
Lemma same_map : forall h kt vt kt' vt' a b n l m n' l' m' e e',
  mval h kt vt (AMap a kt vt n l m) e -> mval h kt' vt' (AMap b kt' vt' n' l' m') e' -> same_obj a b = true ->
  AMap a kt vt n l m = AMap b kt' vt' n' l' m'.
Proof.
  intros h kt vt kt' vt' a b n l m n' l' m' e e' H H' S. unfold same_obj in S. assert (b = a) as -> by lia. assert (P : 0 < a) by lia.
  assert (h a = AMap a kt vt n l m) by (inversion H; subst; auto).
  assert (h a = AMap a kt' vt' n' l' m') by (inversion H'; subst; auto). congruence.
Qed.

(** ** C115 *)

(** Maps of one key type and one value type: fewer entries first, then by the keys, then by the values, each in the order in
    which an iteration gives them.  A Go map may give keys and values in different orders, each map its own. *)
Theorem C115_compare : forall x h, orders x -> exists keys values : any -> list any,
  (forall kt vt m e, mval h kt vt m e -> seen kt (map fst e) (keys m) /\ seen kt (map snd e) (values m)) /\
  forall f kt vt m e m' e', mval h kt vt m e -> mval h kt vt m' e' -> fits_fuel f e ->
    exists c, cont_CompareTo x (S f) MAP m m' = Ok (c, true) /\
      (c = -1 /\ before (keys m) (values m) (keys m') (values m') \/
       c = 0 /\ alike (keys m) (values m) (keys m') (values m') \/
       c = 1 /\ before (keys m') (values m') (keys m) (values m)).
Proof.
  intros x h Ho. exists (ks x), (vs x). split; [intros kt vt m e H; apply (map_seen x h kt vt m e Ho H)|].
  intros f kt vt m e m' e' H H' F. unfold cont_CompareTo.
  destruct (entries_seen x h kt vt m e Ho H) as (Dk & Dv & Lk & Lv).
  destruct (entries_seen x h kt vt m' e' Ho H') as (Dk' & Dv' & Lk' & Lv').
  destruct (fuel_seen x h kt vt m e f Ho H F) as [Fk Fv].
  destruct (map_parts x h kt vt m e Ho H) as (a & n & l & b & E & Ml & Ek & Ev).
  destruct (map_parts x h kt vt m' e' Ho H') as (a' & n' & l' & b' & E' & Ml' & Ek' & Ev').
  destruct (same_obj a a') eqn:S.
  { assert (m = m') as <-.
    { rewrite E in H |- *. rewrite E' in H' |- *. eapply same_map; eassumption. }
    exists 0. split.
    - rewrite E. cbn [Compare]. rewrite E in E'. injection E' as <- <- <- <-.
      change (quick_eq MAP (AMap a kt vt n l b) (AMap a kt vt n l b)) with (Ok (same_obj a a)). rewrite S. reflexivity.
    - right; left. split; [reflexivity|]. split; eapply arrays_refl; eassumption. }
  assert (C : Compare x (1 + f) MAP m m' = compare_coerced x (Compare x f) MAP (AMap a kt vt n l b) (AMap a' kt vt n' l' b'))
    by (rewrite E, E'; apply Compare_maps; exact S).
  cbn [Nat.add] in C. rewrite C. clear C.
  unfold compare_coerced. change (MAP =? STRUCT) with false. change (MAP =? MAP) with true. cbn iota.
  rewrite !Z.eqb_refl. cbn [negb]. rewrite Ml, Ml', Ek, Ek'. cbn [obind].
  destruct (Z.eqb_spec (Z.of_nat (length e)) (Z.of_nat (length e'))) as [L|L]; cbn [negb].
  - destruct (arrays_decide x h f kt (ks x m) (ks x m') Dk Dk') as (c & -> & C); [lia|exact Fk|]. cbn [obind].
    destruct C as [[-> C]|[[-> C]|[-> C]]]; cbn [Z.eqb negb orb].
    + exists (-1). split; [reflexivity|]. left. split; [reflexivity|]. right. split; [lia|]. left. exact C.
    + rewrite Ev, Ev'. cbn [obind]. destruct (arrays_decide x h f vt (vs x m) (vs x m') Dv Dv') as (c & -> & C2); [lia|exact Fv|].
      assert (Cs : Forall2 veq (ks x m') (ks x m)).
      { destruct (lex_laws (lval h kt) (ks x m) Dk) with (l' := ks x m') (l'' := ks x m') as (_ & _ & _ & _ & _ & A & _); auto; try lia.
        eapply Forall_impl; [|exact Dk]. apply lval_laws. }
      exists c. split; [reflexivity|]. destruct C2 as [[-> C2]|[[-> C2]|[-> C2]]]; [left|right; left|right; right]; (split; [reflexivity|]).
      * right. split; [lia|]. right. auto.
      * split; assumption.
      * right. split; [lia|]. right. auto.
    + exists 1. split; [reflexivity|]. right; right. split; [reflexivity|]. right. split; [lia|]. left. exact C.
  - unfold CompareInt. destruct (Z.ltb_spec (Z.of_nat (length e')) (Z.of_nat (length e))).
    + exists 1. split; [reflexivity|]. right; right. split; [reflexivity|]. left. lia.
    + replace (Z.of_nat (length e) <? Z.of_nat (length e')) with true by lia.
      exists (-1). split; [reflexivity|]. left. split; [reflexivity|]. left. lia.
Qed.
Print Assumptions C115_compare.

(** Maps of different types: by the key type, then by the value type. *)
Theorem C115_types : forall x h f kt vt m e kt' vt' m' e', mval h kt vt m e -> mval h kt' vt' m' e' ->
  (kt < kt' \/ kt = kt' /\ vt < vt' -> cont_CompareTo x (S f) MAP m m' = Ok (-1, true)) /\
  (kt' < kt \/ kt' = kt /\ vt' < vt -> cont_CompareTo x (S f) MAP m m' = Ok (1, true)).
Proof.
  intros x h f kt vt m e kt' vt' m' e' H H'.
  assert (X : (kt <> kt' \/ vt <> vt') -> cont_CompareTo x (S f) MAP m m' =
    Ok (if negb (kt =? kt') then CompareInt kt kt' else CompareInt vt vt', true)).
  { intros N.
    assert (Y : exists a n l b a' n' l' b', m = AMap a kt vt n l b /\ m' = AMap a' kt' vt' n' l' b').
    { destruct H, H'; do 8 eexists; split; reflexivity. }
    destruct Y as (a & n & l & b & a' & n' & l' & b' & -> & ->).
    destruct (same_obj a a') eqn:S.
    { pose proof (same_map _ _ _ _ _ _ _ _ _ _ _ _ _ _ _ H H' S) as E. injection E as _ E1 E2 _ _ _. destruct N; congruence. }
    unfold cont_CompareTo. rewrite Compare_maps by exact S.
    unfold compare_coerced. change (MAP =? STRUCT) with false. change (MAP =? MAP) with true. cbn iota.
    destruct (Z.eqb_spec kt kt') as [K|K]; cbn [negb]; [|reflexivity].
    destruct (Z.eqb_spec vt vt') as [V|V]; cbn [negb]; [|reflexivity]. exfalso. destruct N; congruence. }
  split; intros C; rewrite X by lia; unfold CompareInt; destruct (Z.eqb_spec kt kt') as [K|K]; cbn [negb].
  - replace (vt' <? vt) with false by lia. now replace (vt <? vt') with true by lia.
  - replace (kt' <? kt) with false by lia. now replace (kt <? kt') with true by lia.
  - now replace (vt' <? vt) with true by lia.
  - now replace (kt' <? kt) with true by lia.
Qed.
Print Assumptions C115_types.

(** The comparison is a total order of maps of one type, as long as every map is iterated over in its order. *)
Theorem C115_total_order : forall x h f kt vt m e m' e' m'' e'', orders x ->
  mval h kt vt m e -> mval h kt vt m' e' -> mval h kt vt m'' e'' -> fits_fuel f e -> fits_fuel f e' ->
  cont_CompareTo x (S f) MAP m m = Ok (0, true) /\
  (forall c, cont_CompareTo x (S f) MAP m m' = Ok (c, true) -> cont_CompareTo x (S f) MAP m' m = Ok (- c, true)) /\
  (forall c d, cont_CompareTo x (S f) MAP m m' = Ok (c, true) -> cont_CompareTo x (S f) MAP m' m'' = Ok (d, true) -> c <= 0 -> d <= 0 ->
     cont_CompareTo x (S f) MAP m m'' = Ok (Z.min c d, true)).
Proof.
  intros x h f kt vt m e m' e' m'' e'' Ho H H' H'' F F'.
  destruct (C115_compare x h Ho) as (K & V & S & Cm).
  assert (P : forall m e, mval h kt vt m e -> Forall (lval h kt) (K m) /\ Forall (laws (lval h kt)) (K m) /\
            Forall (lval h vt) (V m) /\ Forall (laws (lval h vt)) (V m) /\ length (K m) = length (V m)).
  { intros m0 e0 H0. destruct (S _ _ _ _ H0) as [S1 S2]. apply seen_in in S1, S2. destruct S1 as [I1 L1], S2 as [I2 L2].
    rewrite map_length in L1, L2. assert (E0 : entries_ok h kt vt e0) by (destruct H0; assumption).
    unfold entries_ok in E0. rewrite Forall_forall in E0.
    assert (D1 : Forall (lval h kt) (K m0)).
    { apply Forall_forall; intros v I; apply I1, in_map_iff in I; destruct I as (u & <- & I); apply E0, I. }
    assert (D2 : Forall (lval h vt) (V m0)).
    { apply Forall_forall; intros v I; apply I2, in_map_iff in I; destruct I as (u & <- & I); apply E0, I. }
    split; [exact D1|]. split; [eapply Forall_impl; [|exact D1]; apply lval_laws|].
    split; [exact D2|]. split; [eapply Forall_impl; [|exact D2]; apply lval_laws|]. lia. }
  destruct (P m e H) as (Dk & Lk & Dv & Lv & Le). destruct (P m' e' H') as (Dk' & Lk' & Dv' & Lv' & Le').
  destruct (P m'' e'' H'') as (Dk'' & Lk'' & Dv'' & Lv'' & Le'').
  (* the laws of the order of pairs of sequences *)
  assert (irr : forall m e, mval h kt vt m e -> ~ before (K m) (V m) (K m) (V m)).
  { intros m0 e0 H0. destruct (P m0 e0 H0) as (A1 & A2 & A3 & A4 & _).
    destruct (lex_laws _ _ A1 A2 (K m0) (K m0) A1 A1 eq_refl eq_refl) as (N1 & _).
    destruct (lex_laws _ _ A3 A4 (V m0) (V m0) A3 A3 eq_refl eq_refl) as (N2 & _).
    intros [B|[_ [B|[_ B]]]]; [lia|auto|auto]. }
  assert (tr : forall m e m' e' m'' e'', mval h kt vt m e -> mval h kt vt m' e' -> mval h kt vt m'' e'' ->
    (before (K m) (V m) (K m') (V m') \/ alike (K m) (V m) (K m') (V m')) ->
    (before (K m') (V m') (K m'') (V m'') \/ alike (K m') (V m') (K m'') (V m'')) ->
    (alike (K m) (V m) (K m'') (V m'') /\ alike (K m) (V m) (K m') (V m') /\ alike (K m') (V m') (K m'') (V m'')) \/
    before (K m) (V m) (K m'') (V m'') /\ (before (K m) (V m) (K m') (V m') \/ before (K m') (V m') (K m'') (V m''))).
  { clear - P. intros a ea b eb c ec Ha Hb Hc.
    destruct (P a ea Ha) as (A1 & A2 & A3 & A4 & A5). destruct (P b eb Hb) as (B1 & B2 & B3 & B4 & B5).
    destruct (P c ec Hc) as (C1 & C2 & C3 & C4 & C5).
    assert (Q : length (K a) = length (K b) -> length (K b) = length (K c) ->
      (lexl vlt veq (K a) (K b) -> lexl vlt veq (K b) (K c) -> lexl vlt veq (K a) (K c)) /\
      (Forall2 veq (K a) (K b) -> Forall2 veq (K b) (K c) -> Forall2 veq (K a) (K c)) /\
      (Forall2 veq (K a) (K b) -> lexl vlt veq (K b) (K c) -> lexl vlt veq (K a) (K c)) /\
      (lexl vlt veq (K a) (K b) -> Forall2 veq (K b) (K c) -> lexl vlt veq (K a) (K c)) /\
      (lexl vlt veq (V a) (V b) -> lexl vlt veq (V b) (V c) -> lexl vlt veq (V a) (V c)) /\
      (Forall2 veq (V a) (V b) -> Forall2 veq (V b) (V c) -> Forall2 veq (V a) (V c)) /\
      (Forall2 veq (V a) (V b) -> lexl vlt veq (V b) (V c) -> lexl vlt veq (V a) (V c)) /\
      (lexl vlt veq (V a) (V b) -> Forall2 veq (V b) (V c) -> lexl vlt veq (V a) (V c))).
    { intros L1 L2.
      destruct (lex_laws _ _ A1 A2 (K b) (K c) B1 C1) as (_ & T1 & _ & _ & _ & _ & T2 & T3 & T4); [lia|lia|].
      destruct (lex_laws _ _ A3 A4 (V b) (V c) B3 C3) as (_ & U1 & _ & _ & _ & _ & U2 & U3 & U4); [lia|lia|].
      repeat (split; [assumption|]). assumption. }
    assert (FL : forall l l' : list any, Forall2 veq l l' -> length l = length l') by (intros l l' X; induction X; cbn; congruence).
    unfold before, alike. intros X Y.
    destruct X as [[X|[X1 [X|[X X2]]]]|[X X2]].
    - right. split; [|left; left; exact X]. left. destruct Y as [[Y|[Y1 _]]|[Y _]]; [lia|lia|]. apply FL in Y. lia.
    - destruct Y as [[Y|[Y1 [Y|[Y Y2]]]]|[Y Y2]].
      + right. split; [left; lia|auto].
      + destruct (Q X1 Y1) as (Q1 & _). right. split; [|auto]. right. split; [lia|]. left. auto.
      + destruct (Q X1 Y1) as (_ & _ & _ & Q4 & _). right. split; [|auto]. right. split; [lia|]. left. auto.
      + pose proof (FL _ _ Y) as Y1. destruct (Q X1 Y1) as (_ & _ & _ & Q4 & _). right. split; [|auto]. right. split; [lia|]. left. auto.
    - destruct Y as [[Y|[Y1 [Y|[Y Y2]]]]|[Y Y2]].
      + right. split; [left; lia|auto].
      + destruct (Q X1 Y1) as (_ & _ & Q3 & _). right. split; [|left; right; auto]. right. split; [lia|]. left. auto.
      + destruct (Q X1 Y1) as (_ & Q2 & _ & _ & Q5 & _). right. split; [|left; right; auto]. right. split; [lia|]. right. auto.
      + pose proof (FL _ _ Y) as Y1. destruct (Q X1 Y1) as (_ & Q2 & _ & _ & _ & _ & _ & Q8). right. split; [|left; right; auto].
        right. split; [lia|]. right. auto.
    - pose proof (FL _ _ X) as X1. destruct Y as [[Y|[Y1 [Y|[Y Y2]]]]|[Y Y2]].
      + right. split; [left; lia|auto].
      + destruct (Q X1 Y1) as (_ & _ & Q3 & _). right. split; [|right; right; auto]. right. split; [lia|]. left. auto.
      + destruct (Q X1 Y1) as (_ & Q2 & _ & _ & _ & _ & Q7 & _). right. split; [|right; right; auto]. right. split; [lia|]. right. auto.
      + pose proof (FL _ _ Y) as Y1. destruct (Q X1 Y1) as (_ & Q2 & _ & _ & _ & Q6 & _). left. auto 10. }
  assert (sy : forall m e m' e', mval h kt vt m e -> mval h kt vt m' e' -> alike (K m) (V m) (K m') (V m') -> alike (K m') (V m') (K m) (V m)).
  { clear - P. intros a ea b eb Ha Hb [X Y].
    destruct (P a ea Ha) as (A1 & A2 & A3 & A4 & A5). destruct (P b eb Hb) as (B1 & B2 & B3 & B4 & B5).
    assert (FL : forall l l' : list any, Forall2 veq l l' -> length l = length l') by (intros l l' Z; induction Z; cbn; congruence).
    pose proof (FL _ _ X). pose proof (FL _ _ Y).
    destruct (lex_laws _ _ A1 A2 (K b) (K b) B1 B1) as (_ & _ & _ & _ & _ & T & _); [lia|lia|].
    destruct (lex_laws _ _ A3 A4 (V b) (V b) B3 B3) as (_ & _ & _ & _ & _ & U & _); [lia|lia|]. split; auto. }
  assert (xx : forall m e m' e', mval h kt vt m e -> mval h kt vt m' e' -> before (K m) (V m) (K m') (V m') ->
    alike (K m) (V m) (K m') (V m') \/ alike (K m') (V m') (K m) (V m) \/ before (K m') (V m') (K m) (V m) -> False).
  { intros a ea b eb Ha Hb X Y.
    assert (Y' : before (K b) (V b) (K a) (V a) \/ alike (K b) (V b) (K a) (V a)).
    { destruct Y as [Y|[Y|Y]]; auto. right. eapply sy; [exact Ha|exact Hb|exact Y]. }
    destruct (tr _ _ _ _ _ _ Ha Hb Ha (or_introl X) Y') as [(_ & A & _)|[B _]]; [|exact (irr _ _ Ha B)].
    assert (A' := sy _ _ _ _ Ha Hb A). destruct (tr _ _ _ _ _ _ Hb Ha Hb (or_intror A') (or_introl X)) as [(_ & _ & A2)|[B _]]; [|exact (irr _ _ Hb B)].
    destruct (tr _ _ _ _ _ _ Ha Hb Ha (or_introl X) (or_intror A')) as [(Z1 & Z2 & Z3)|[B _]]; [|exact (irr _ _ Ha B)].
    clear - X Z2 P Ha Hb. destruct (P a ea Ha) as (A1 & A2 & A3 & A4 & A5). destruct (P b eb Hb) as (B1 & B2 & B3 & B4 & B5).
    assert (FL : forall l l' : list any, Forall2 veq l l' -> length l = length l') by (intros l l' Z; induction Z; cbn; congruence).
    destruct Z2 as [Z2 Z3]. pose proof (FL _ _ Z2). pose proof (FL _ _ Z3).
    destruct (lex_laws _ _ A1 A2 (K b) (K b) B1 B1) as (_ & _ & _ & T & _); [lia|lia|].
    destruct (lex_laws _ _ A3 A4 (V b) (V b) B3 B3) as (_ & _ & _ & U & _); [lia|lia|].
    destruct X as [X|[_ [X|[_ X]]]]; [lia|exact (T X Z2)|exact (U X Z3)]. }
  destruct (Cm f kt vt m e m e H H F) as (c0 & E0 & C0).
  destruct (Cm f kt vt m e m' e' H H' F) as (c1 & E1 & C1).
  destruct (Cm f kt vt m' e' m e H' H F') as (c2 & E2 & C2).
  destruct (Cm f kt vt m' e' m'' e'' H' H'' F') as (c3 & E3 & C3).
  destruct (Cm f kt vt m e m'' e'' H H'' F) as (c4 & E4 & C4).
  split; [|split].
  - rewrite E0. destruct C0 as [[_ B]|[[-> _]|[_ B]]]; [destruct (irr _ _ H B)|reflexivity|destruct (irr _ _ H B)].
  - intros c E. rewrite E1 in E. injection E as <-. rewrite E2. f_equal. f_equal.
    destruct C1 as [[-> B]|[[-> B]|[-> B]]], C2 as [[-> D]|[[-> D]|[-> D]]]; try reflexivity; exfalso.
    + exact (xx _ _ _ _ H H' B (or_intror (or_intror D))).
    + exact (xx _ _ _ _ H H' B (or_intror (or_introl D))).
    + exact (xx _ _ _ _ H' H D (or_intror (or_introl B))).
    + exact (xx _ _ _ _ H H' D (or_introl B)).
    + exact (xx _ _ _ _ H' H B (or_introl D)).
    + exact (xx _ _ _ _ H' H B (or_intror (or_intror D))).
  - intros c d E E'. rewrite E1 in E. injection E as <-. rewrite E3 in E'. injection E' as <-. intros Lc Ld. rewrite E4. f_equal. f_equal.
    assert (X1 : before (K m) (V m) (K m') (V m') \/ alike (K m) (V m) (K m') (V m')) by (destruct C1 as [[-> B]|[[-> B]|[-> B]]]; auto; lia).
    assert (X3 : before (K m') (V m') (K m'') (V m'') \/ alike (K m') (V m') (K m'') (V m'')) by (destruct C3 as [[-> B]|[[-> B]|[-> B]]]; auto; lia).
    destruct (tr _ _ _ _ _ _ H H' H'' X1 X3) as [(A1 & A2 & A3)|[B [B1|B3]]].
    + assert (c1 = 0) as -> by (destruct C1 as [[-> B]|[[-> B]|[-> B]]]; [destruct (xx _ _ _ _ H H' B (or_introl A2))|reflexivity|lia]).
      assert (c3 = 0) as -> by (destruct C3 as [[-> B]|[[-> B]|[-> B]]]; [destruct (xx _ _ _ _ H' H'' B (or_introl A3))|reflexivity|lia]).
      destruct C4 as [[-> B]|[[-> B]|[-> B]]]; [destruct (xx _ _ _ _ H H'' B (or_introl A1))|reflexivity|destruct (xx _ _ _ _ H'' H B (or_intror (or_introl A1)))].
    + assert (c1 = -1) as -> by (destruct C1 as [[-> D]|[[-> D]|[-> D]]]; [reflexivity|destruct (xx _ _ _ _ H H' B1 (or_introl D))|lia]).
      assert (c4 = -1) as -> by (destruct C4 as [[-> D]|[[-> D]|[-> D]]]; [reflexivity|destruct (xx _ _ _ _ H H'' B (or_introl D))|destruct (xx _ _ _ _ H H'' B (or_intror (or_intror D)))]).
      destruct C3 as [[-> _]|[[-> _]|[-> _]]]; lia.
    + assert (c3 = -1) as -> by (destruct C3 as [[-> D]|[[-> D]|[-> D]]]; [reflexivity|destruct (xx _ _ _ _ H' H'' B3 (or_introl D))|lia]).
      assert (c4 = -1) as -> by (destruct C4 as [[-> D]|[[-> D]|[-> D]]]; [reflexivity|destruct (xx _ _ _ _ H H'' B (or_introl D))|destruct (xx _ _ _ _ H H'' B (or_intror (or_intror D)))]).
      destruct C1 as [[-> _]|[[-> _]|[-> _]]]; lia.
Qed.
Print Assumptions C115_total_order.

(** Equals and Less follow the comparison.  Less holds of the greater map (C66 has it for the types). *)
Theorem C115_methods : forall x f t p q c ok, cont_CompareTo x f t p q = Ok (c, ok) ->
  (cont_Equals x f t p q = Ok true <-> ok = true /\ c = 0) /\ (cont_Less x f t p q = Ok true <-> ok = true /\ 0 < c).
Proof.
  intros x f t p q c ok E. unfold cont_Equals, cont_Less. rewrite E. cbn [obind].
  split; (split; [intros H; injection H as H; destruct ok; cbn [andb] in H; [split; [reflexivity|lia]|discriminate]|intros [-> H]; f_equal; cbn [andb]; lia]).
Qed.
Print Assumptions C115_methods.

(** Maps that are called equal have equal keys and equal values ... *)
Theorem C115_equal_partial : forall x h f kt vt m e m' e', orders x -> mval h kt vt m e -> mval h kt vt m' e' -> fits_fuel f e ->
  cont_Equals x (S f) MAP m m' = Ok true ->
  exists k k' v v', Permutation (map fst e) k /\ Permutation (map fst e') k' /\ Forall2 veq k k' /\
    Permutation (map snd e) v /\ Permutation (map snd e') v' /\ Forall2 veq v v'.
Proof.
  intros x h f kt vt m e m' e' Ho H H' F E.
  destruct (C115_compare x h Ho) as (K & V & S & Cm).
  destruct (Cm f kt vt m e m' e' H H' F) as (c & Ec & C).
  apply (proj1 (C115_methods _ _ _ _ _ _ _ Ec)) in E. destruct E as [_ ->].
  destruct C as [[C _]|[[_ [Ck Cv]]|[C _]]]; try discriminate.
  assert (P : forall kt all s, seen kt all s -> Permutation all s).
  { intros kt0 all s X. unfold seen in X. destruct (mem kt0 go_keys); [exact X|subst; apply Permutation_refl]. }
  destruct (S _ _ _ _ H) as [S1 S2]. destruct (S _ _ _ _ H') as [S3 S4].
  exists (K m), (K m'), (V m), (V m'). repeat (split; [first [eapply P; eassumption|assumption]|]). assumption.
Qed.
Print Assumptions C115_equal_partial.
(** ... but not the same entries: the values may be under other keys. *)
Definition swaps : ext := MkExt (fun _ => []) (fun _ => []) (fun _ => (0, None)) (fun _ => 0)
  (fun tag l => if tag =? 5 then rev l else l) (fun _ _ => false).
Lemma swaps_orders : orders swaps.
Proof. intros tag l. cbn. destruct (tag =? 5); [apply Permutation_rev|apply Permutation_refl]. Qed.
Theorem C115_entries_refuted : exists m m' e e', orders swaps /\
  (forall h, h 1 = m -> h 2 = m' -> mval h I32 STRING m e /\ mval h I32 STRING m' e') /\
  e = [(AInt32 1, AStr [97]); (AInt32 2, AStr [98])] /\ e' = [(AInt32 1, AStr [98]); (AInt32 2, AStr [97])] /\
  cont_Equals swaps 2 MAP m m' = Ok true.
Proof.
  exists (AMap 1 I32 STRING 2 [] [(AInt32 1, AStr [97]); (AInt32 2, AStr [98])]),
         (AMap 2 I32 STRING 2 [] [(AInt32 1, AStr [98]); (AInt32 2, AStr [97])]). do 2 eexists.
  split; [exact swaps_orders|]. split; [|split; [reflexivity|split; [reflexivity|vm_compute; reflexivity]]].
  intros h H1 H2. split; (constructor; [cbn; auto 10|intros _; assumption|]);
    (apply Forall_cons; [|apply Forall_cons; [|apply Forall_nil]]); (split; apply lv_scalar; constructor; try concrete; cbn; auto).
Qed.
Print Assumptions C115_entries_refuted.
(** Maps with the same entries may be called unequal. *)
Definition turns : ext := MkExt (fun _ => []) (fun _ => []) (fun _ => (0, None)) (fun _ => 0)
  (fun tag l => if tag =? 4 then rev l else l) (fun _ _ => false).
Lemma turns_orders : orders turns.
Proof. intros tag l. cbn. destruct (tag =? 4); [apply Permutation_rev|apply Permutation_refl]. Qed.
Theorem C115_same_refuted : exists m m' e, orders turns /\
  (forall h, h 1 = m -> h 2 = m' -> mval h I32 STRING m e /\ mval h I32 STRING m' e) /\
  cont_CompareTo turns 2 MAP m m' = Ok (-1, true).
Proof.
  exists (AMap 1 I32 STRING 2 [] [(AInt32 1, AStr [97]); (AInt32 2, AStr [98])]),
         (AMap 2 I32 STRING 2 [] [(AInt32 1, AStr [97]); (AInt32 2, AStr [98])]). eexists.
  split; [exact turns_orders|]. split; [|vm_compute; reflexivity].
  intros h H1 H2. split; (constructor; [cbn; auto 10|intros _; assumption|]);
    (apply Forall_cons; [|apply Forall_cons; [|apply Forall_nil]]); (split; apply lv_scalar; constructor; try concrete; cbn; auto).
Qed.
Print Assumptions C115_same_refuted.

(** With at most one entry, or with keys kept in a list, maps are called equal exactly if they have equal entries (in the same
    places of the list). *)
Theorem C115_entries : forall x h f kt vt m e m' e', orders x -> mval h kt vt m e -> mval h kt vt m' e' -> fits_fuel f e ->
  In kt list_keys \/ (length e <= 1 /\ length e' <= 1)%nat ->
  (cont_Equals x (S f) MAP m m' = Ok true <-> Forall2 (fun a b => veq (fst a) (fst b) /\ veq (snd a) (snd b)) e e').
Proof.
  intros x h f kt vt m e m' e' Ho H H' F G.
  destruct (C115_compare x h Ho) as (K & V & S & Cm).
  destruct (Cm f kt vt m e m' e' H H' F) as (c & Ec & C).
  assert (P : forall m e, mval h kt vt m e -> In kt list_keys \/ (length e <= 1)%nat -> K m = map fst e /\ V m = map snd e).
  { clear - S. intros m e H G. destruct (S _ _ _ _ H) as [S1 S2]. unfold seen in *. destruct (mem kt go_keys) eqn:M; [|auto].
    destruct G as [G|G]; [rewrite (proj1 (list_mem _ G)) in M; discriminate|].
    destruct e as [|a [|b e]]; [| |cbn in G; lia]; cbn [map] in *.
    - apply Permutation_nil in S1, S2. auto.
    - apply Permutation_length_1_inv in S1, S2. auto. }
  destruct (P m e H) as [Ek Ev]; [tauto|]. destruct (P m' e' H') as [Ek' Ev']; [tauto|].
  rewrite (proj1 (C115_methods _ _ _ _ _ _ _ Ec)). rewrite Ek, Ek', Ev, Ev' in C.
  assert (D : Forall2 (fun a b => veq (fst a) (fst b) /\ veq (snd a) (snd b)) e e' <-> alike (map fst e) (map snd e) (map fst e') (map snd e')).
  { clear. unfold alike. split.
    - intros X. induction X as [|a b e e' [A B] X IH]; cbn; [split; constructor|]. destruct IH. split; constructor; assumption.
    - revert e'. induction e as [|a e IH]; intros [|b e'] [X Y]; cbn in *; try (inversion X; fail); [constructor|].
      inversion X; subst. inversion Y; subst. constructor; [auto|]. apply IH. auto. }
  rewrite D. split.
  - intros [_ ->]. destruct C as [[C _]|[[_ C]|[C _]]]; try discriminate. exact C.
  - intros A. split; [reflexivity|].
    assert (Ok1 : forall m e, mval h kt vt m e -> Forall (lval h kt) (map fst e) /\ Forall (lval h vt) (map snd e)).
    { clear. intros m e H. assert (X : entries_ok h kt vt e) by (destruct H; assumption). unfold entries_ok in X. rewrite Forall_forall in X.
      split; apply Forall_forall; intros v I; apply in_map_iff in I; destruct I as (u & <- & I); apply X, I. }
    destruct (Ok1 m e H) as [A1 A2]. destruct (Ok1 m' e' H') as [B1 B2].
    assert (LL : forall t l, Forall (lval h t) l -> Forall (laws (lval h t)) l)
      by (clear; intros t l X; eapply Forall_impl; [|exact X]; apply lval_laws).
    assert (Le : length e = length e').
    { destruct A as [A _]. apply f2_len in A. now rewrite !map_length in A. }
    destruct (lex_laws _ _ A1 (LL _ _ A1) (map fst e') (map fst e') B1 B1) as (_ & _ & _ & T & _ & T6 & _ & _ & _); try (rewrite !map_length; exact Le).
    destruct (lex_laws _ _ A2 (LL _ _ A2) (map snd e') (map snd e') B2 B2) as (_ & _ & _ & U & _ & U6 & _ & _ & _); try (rewrite !map_length; exact Le).
    destruct (lex_laws _ _ B1 (LL _ _ B1) (map fst e) (map fst e) A1 A1) as (_ & _ & _ & T' & _); try (rewrite !map_length; auto).
    destruct (lex_laws _ _ B2 (LL _ _ B2) (map snd e) (map snd e) A2 A2) as (_ & _ & _ & U' & _); try (rewrite !map_length; auto).
    destruct A as [X Y]. destruct C as [[_ [C|[_ [C|[_ C]]]]]|[[-> _]|[_ [C|[_ [C|[_ C]]]]]]]; try reflexivity; exfalso.
    + rewrite !map_length in C. lia.
    + exact (T C X).
    + exact (U C Y).
    + rewrite !map_length in C. lia.
    + exact (T' C (T6 X)).
    + exact (U' C (U6 Y)).
Qed.
Print Assumptions C115_entries.

(** A map that holds the same entries in another order of its list is another map. *)
Theorem C115_list_refuted : exists e e', Permutation e e' /\ forall x f, cont_Equals x (3 + f) MAP
  (AMap 1 BINARY I32 0 e []) (AMap 2 BINARY I32 0 e' []) = Ok false.
Proof.
  exists [(ABytes [1], AInt32 1); (ABytes [2], AInt32 2)], [(ABytes [2], AInt32 2); (ABytes [1], AInt32 1)].
  split; [apply perm_swap|]. intros x f. reflexivity.
Qed.
Print Assumptions C115_list_refuted.
(** Maps whose keys are maps cannot be compared, whatever is in them, if they have as many entries. *)
Theorem C115_map_keys_refuted : forall x f vt n m l l', length l = length l' -> (0 < length l)%nat -> 
  cont_CompareTo x (S f) MAP (AMap 1 MAP vt n l []) (AMap 2 MAP vt m l' []) = Panic.
Proof.
  intros x f vt n m l l' L P. unfold cont_CompareTo. rewrite Compare_maps by reflexivity. unfold compare_coerced.
  change (MAP =? STRUCT) with false. change (MAP =? MAP) with true. cbn iota. rewrite !Z.eqb_refl. cbn [negb].
  unfold map_Len. destruct l as [|a l]; [cbn in P; lia|]. destruct l' as [|b l']; [discriminate|]. cbn [length Nat.eqb negb].
  cbn [length] in L. injection L as ->. rewrite Z.eqb_refl. cbn [negb]. reflexivity.
Qed.
Print Assumptions C115_map_keys_refuted.
(** Empty maps with such keys are told apart by the size they were made with. *)
Theorem C115_hint_refuted : forall x f vt n m, n < m -> cont_CompareTo x (S f) MAP (AMap 1 LIST vt n [] []) (AMap 2 LIST vt m [] []) = Ok (-1, true).
Proof.
  intros x f vt n m L. unfold cont_CompareTo. rewrite Compare_maps by reflexivity. unfold compare_coerced.
  change (MAP =? STRUCT) with false. change (MAP =? MAP) with true. cbn iota. rewrite !Z.eqb_refl. cbn [negb].
  change (map_Len LIST n [] []) with n. change (map_Len LIST m [] []) with m. cbn [negb].
  replace (n =? m) with false by lia. cbn [negb]. unfold CompareInt. replace (m <? n) with false by lia. now replace (n <? m) with true by lia.
Qed.
Print Assumptions C115_hint_refuted.

(** Hypotheses met, and comparisons: a map of strings and lists of int64s, and one of binaries. *)
Definition heap1 (a : Z) : any :=
  if a =? 1 then AMap 1 STRING LIST 2 [] [(AStr [97], AList 0 I64 [AInt64 1]); (AStr [98], AList 0 I64 [])]
  else if a =? 2 then AMap 2 STRING LIST 0 [] [(AStr [98], AList 0 I64 []); (AStr [97], AList 0 I64 [AInt64 2])]
  else if a =? 3 then AMap 3 BINARY I16 0 [(ABytes [3], AInt16 4); (ABytes [], AInt16 7)] []
  else if a =? 4 then AMap 4 BINARY I16 9 [(ABytes [3], AInt16 4); (ABytes [], AInt16 8)] []
  else ANil.
Definition ents (m : any) : list (any * any) := match m with AMap _ _ _ _ l b => l ++ b | _ => [] end.
Example C115_case :
  mval heap1 STRING LIST (heap1 1) (ents (heap1 1)) /\ mval heap1 STRING LIST (heap1 2) (ents (heap1 2)) /\
  mval heap1 BINARY I16 (heap1 3) (ents (heap1 3)) /\ mval heap1 BINARY I16 (heap1 4) (ents (heap1 4)) /\
  (forall a, In a [1; 2; 3; 4] -> fits_fuel 3 (ents (heap1 a))) /\
  cont_CompareTo ext0 4 MAP (heap1 1) (heap1 2) = Ok (1, true) /\ cont_CompareTo ext0 4 MAP (heap1 2) (heap1 1) = Ok (-1, true) /\
  cont_CompareTo ext0 4 MAP (heap1 3) (heap1 4) = Ok (-1, true) /\ cont_CompareTo ext0 4 MAP (heap1 1) (heap1 3) = Ok (-1, true) /\
  cont_Equals ext0 4 MAP (heap1 4) (heap1 4) = Ok true.
Proof.
  split; [|split; [|split; [|split; [|split]]]].
  - apply mv_go; [cbn; auto 10|reflexivity|]. repeat (apply Forall_cons; [split; [apply lv_scalar; constructor; [cbn; auto|concrete]|]|]); try apply Forall_nil;
      (apply lv_list; [cbn; lia|]); repeat (apply Forall_cons; [apply lv_scalar; constructor; concrete|]); apply Forall_nil.
  - apply mv_go; [cbn; auto 10|reflexivity|]. repeat (apply Forall_cons; [split; [apply lv_scalar; constructor; [cbn; auto|concrete]|]|]); try apply Forall_nil;
      (apply lv_list; [cbn; lia|]); repeat (apply Forall_cons; [apply lv_scalar; constructor; concrete|]); apply Forall_nil.
  - apply mv_list; [cbn; auto 10|reflexivity| |discriminate]. repeat (apply Forall_cons; [split; apply lv_scalar; constructor; concrete|]); apply Forall_nil.
  - apply mv_list; [cbn; auto 10|reflexivity| |discriminate]. repeat (apply Forall_cons; [split; apply lv_scalar; constructor; concrete|]); apply Forall_nil.
  - intros a Ha. repeat (destruct Ha as [<-|Ha]; [intros e He; cbn in He; repeat (destruct He as [<-|He]; [cbn; lia|]); destruct He|]). destruct Ha.
  - repeat split; vm_compute; reflexivity.
Qed.
