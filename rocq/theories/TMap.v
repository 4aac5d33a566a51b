(** tmap.go *)
From Coq Require Import ZArith List Bool Lia Sorted Permutation.
From Coq Require Import ZifyBool ZifyNat.
From Verif Require Import Base Arith F64 Strconv TField GoVal Compare CompareProofs TList TSet.
Import ListNotations.
Open Scope Z_scope.
Ltac Zify.zify_post_hook ::= Z.div_mod_to_equations.

(** tMap, tmap.go:49-61.  Of the seven Go maps only the one of the key type is ever used;
    [tm_b] is that map, [tm_l] the list. *)
Record tmap : Type := MkTm {
  tm_kt : Z; tm_vt : Z; tm_size : Z;
  tm_l : list (any * any);
  tm_b : list (any * any)
}.
Definition NewTMap (k v s : Z) : tmap := MkTm k v s [] [].
Definition tm_Len (p : tmap) : Z := map_Len (tm_kt p) (tm_size p) (tm_l p) (tm_b p).

(** The Go type the assertion [coercedKey.(T)] of the key type expects. *)
Definition key_typed (kt : Z) (k : any) : bool :=
  match k with
  | ABool _ => kt =? BOOL
  | AByte _ => kt =? BYTE
  | AF64 _ => kt =? DOUBLE
  | AInt16 _ => kt =? I16
  | AInt32 _ => kt =? I32
  | AInt64 _ => kt =? I64
  | AStr _ => mem kt [STRING; UTF8; UTF16]
  | _ => false
  end.

(** m[k] = v and m[k] of a Go map: keys compared with ==. *)
Fixpoint gm_set (m : list (any * any)) (k v : any) : outcome (list (any * any)) :=
  match m with
  | [] => Ok [(k, v)]
  | (k', v') :: m' =>
    e <- go_eq k k' ;;
    if (e : bool) then Ok ((k, v) :: m') else r <- gm_set m' k v ;; Ok ((k', v') :: r)
  end.
Fixpoint gm_get (m : list (any * any)) (k : any) : outcome (option any) :=
  match m with
  | [] => Ok None
  | (k', v') :: m' => e <- go_eq k k' ;; if (e : bool) then Ok (Some v') else gm_get m' k
  end.

Definition go_map_type (kt : Z) : bool :=
  mem kt [BOOL; BYTE; DOUBLE; I16; I32; I64; STRING; UTF8; UTF16].

Section Ops.
Variable x : ext.
Variable fuel : nat.

(** The ordered insertion of Set, tmap.go:361-376. *)
Fixpoint list_set (kt : Z) (k v : any) (l : list (any * any)) : outcome (list (any * any)) :=
  match l with
  | [] => Ok [(k, v)]
  | (k', v') :: l' =>
    ' (cmp, ok) <- Compare x fuel kt k k' ;;
    if ok && (0 <=? cmp) then
      Ok (if cmp =? 0 then (k, v) :: l' else (k, v) :: (k', v') :: l')
    else r <- list_set kt k v l' ;; Ok ((k', v') :: r)
  end.

(** Set, tmap.go:344-440.  The list keeps the coerced value, the Go maps the value as given. *)
Definition tm_Set (p : tmap) (key value : any) : outcome tmap :=
  let kt := if (tm_kt p =? STOP) || (tm_kt p =? VOID) then TypeFromValue key else tm_kt p in
  ' (ck, ok) <- CoerceData x kt key ;;
  if negb ok then Ok (MkTm kt (tm_vt p) (tm_size p) (tm_l p) (tm_b p))
  else
    let vt := if (tm_vt p =? STOP) || (tm_vt p =? VOID) then TypeFromValue value else tm_vt p in
    ' (cv, ok2) <- CoerceData x vt value ;;
    if negb ok2 then Ok (MkTm kt vt (tm_size p) (tm_l p) (tm_b p))
    else if negb (IsBaseType kt) || (kt =? BINARY) then
      l' <- list_set kt ck cv (tm_l p) ;; Ok (MkTm kt vt (tm_size p) l' (tm_b p))
    else if is_nil key then Ok (MkTm kt vt (tm_size p) (tm_l p) (tm_b p))
    else if key_typed kt ck then
      b' <- gm_set (tm_b p) ck value ;; Ok (MkTm kt vt (tm_size p) (tm_l p) b')
    else Panic.

(** Key test of the list searches, tmap.go:225-338: nil keys are passed over. *)
Definition list_key_eq (kt : Z) (uk k : any) : outcome bool :=
  match k with
  | ANil => Ok false
  | _ =>
    if kt =? BINARY then
      match k with
      | ABytes b => match uk with ABytes a => Ok (bytes_Compare b a =? 0) | _ => Panic end
      | _ => Ok (x_deep_eq x uk k)
      end
    else if kt =? STRUCT then
      match k with
      | AStruct _ _ _ _ => ' (c, ok) <- Compare x fuel STRUCT k uk ;; Ok (ok && (c =? 0))
      | _ => Ok (x_deep_eq x uk k)
      end
    else if kt =? MAP then
      match k with
      | AMap _ _ _ _ _ _ => ' (c, ok) <- Compare x fuel MAP k uk ;; Ok (ok && (c =? 0))
      | _ => Ok (x_deep_eq x uk k)
      end
    else if kt =? SET then
      match k with
      | ASet _ _ _ _ => ' (c, ok) <- Compare x fuel SET k uk ;; Ok (ok && (c =? 0))
      | _ => Ok (x_deep_eq x uk k)
      end
    else
      match k with
      | AList _ _ _ => ' (c, ok) <- Compare x fuel LIST k uk ;; Ok (ok && (c =? 0))
      | _ => Ok (x_deep_eq x uk k)
      end
  end.
Fixpoint list_get (kt : Z) (uk : any) (l : list (any * any)) : outcome (option any) :=
  match l with
  | [] => Ok None
  | (k, v) :: l' => e <- list_key_eq kt uk k ;; if (e : bool) then Ok (Some v) else list_get kt uk l'
  end.
Fixpoint nil_get (l : list (any * any)) : option any :=
  match l with [] => None | (k, v) :: l' => if is_nil k then Some v else nil_get l' end.

(** Get, tmap.go:128-342.  An absent BOOL key gives (nil, true) once the map exists
    (tmap.go:151-159). *)
Definition tm_Get (p : tmap) (key : any) : outcome (any * bool) :=
  let kt := tm_kt p in
  if IsEmptyType kt then Ok (ANil, false)
  else if is_nil key then
    Ok (match nil_get (tm_l p) with Some v => (v, true) | None => (ANil, false) end)
  else
    ' (uk, ok) <- CoerceData x kt key ;;
    if negb ok then Ok (ANil, false)
    else if kt =? BOOL then
      match tm_b p with
      | [] => Ok (ANil, false)
      | m => if key_typed kt uk then
               r <- gm_get m uk ;; Ok (match r with Some v => (v, true) | None => (ANil, true) end)
             else Panic
      end
    else if go_map_type kt then
      if negb (kt =? BYTE) && (length (tm_b p) =? 0)%nat then Ok (ANil, false)
      else if key_typed kt uk then
        r <- gm_get (tm_b p) uk ;; Ok (match r with Some v => (v, true) | None => (ANil, false) end)
      else Panic
    else if mem kt [BINARY; STRUCT; MAP; SET; LIST] then
      r <- list_get kt uk (tm_l p) ;; Ok (match r with Some v => (v, true) | None => (ANil, false) end)
    else Panic.

(** Contains, tmap.go:402-549 (its list searches have no DeepEqual case for MAP, SET, LIST;
    keys there always have the Go type, so the difference is not visible). *)
Definition tm_Contains (p : tmap) (key : any) : outcome bool :=
  let kt := tm_kt p in
  ' (uk, ok) <- CoerceData x kt key ;;
  if negb ok then Ok false
  else if is_nil uk then Ok (match nil_get (tm_l p) with Some _ => true | None => false end)
  else if IsEmptyType kt then Ok false
  else if go_map_type kt then
    if negb (kt =? BYTE) && (length (tm_b p) =? 0)%nat then Ok false
    else if key_typed kt uk then
      r <- gm_get (tm_b p) uk ;; Ok (match r with Some _ => true | None => false end)
    else Panic
  else if mem kt [BINARY; STRUCT; MAP; SET; LIST] then
    r <- list_get kt uk (tm_l p) ;; Ok (match r with Some _ => true | None => false end)
  else Panic.

(** Keys, Values: tmap.go:749-769; [a] is the map's address. *)
Definition tm_Keys (a : Z) (p : tmap) : outcome (list any) :=
  map_Keys x a (tm_kt p) (tm_size p) (tm_l p) (tm_b p).
Definition tm_Values (a : Z) (p : tmap) : outcome (list any) :=
  map_Values x a (tm_kt p) (tm_size p) (tm_l p) (tm_b p).

End Ops.

(** ** Specification *)

(** [v] is the last value set for [k]. *)
Definition last_set (h : list (any * any)) (k v : any) : Prop :=
  exists h1 k' h2, h = h1 ++ (k', v) :: h2 /\ scalar_eq k' k /\
    forall k2 v2, In (k2, v2) h2 -> ~ scalar_eq k2 k.

Fixpoint tm_run (x : ext) (fuel : nat) (p : tmap) (h : list (any * any)) : outcome tmap :=
  match h with
  | [] => Ok p
  | (k, v) :: h' => q <- tm_Set x fuel p k v ;; tm_run x fuel q h'
  end.

(** ** Proofs *)
Definition scalar_type (kt : Z) : bool := go_map_type kt || (kt =? BINARY).

(** The entries that are in use. *)
Definition entries (p : tmap) : list (any * any) :=
  if tm_kt p =? BINARY then tm_l p else tm_b p.
Fixpoint elookup (es : list (any * any)) (k : any) : option any :=
  match es with
  | [] => None
  | (k', v) :: es' => if str_eq (key k) (key k') then Some v else elookup es' k
  end.
Definition ekeys (es : list (any * any)) : list bytes := map (fun e => key (fst e)) es.

Record minv (p : tmap) : Prop := {
  mi_kt : scalar_type (tm_kt p) = true;
  mi_other : if tm_kt p =? BINARY then tm_b p = [] else tm_l p = [];
  mi_nat : Forall (fun e => native (tm_kt p) (fst e)) (entries p);
  mi_nodup : NoDup (ekeys (entries p));
  mi_sorted : tm_kt p = BINARY -> StronglySorted (fun a b => gt_ (fst a) (fst b)) (entries p)
}.

Lemma go_eq_native : forall p a b, (p =? BINARY) = false -> native p a -> native p b ->
  go_eq a b = Ok (str_eq (key a) (key b)).
Proof.
  intros p a b Hp Ha Hb.
  pose proof (same_elem_native (MkExt (fun _ => []) (fun _ => []) (fun _ => (0, None)) (fun _ => 0) (fun _ l => l) (fun _ _ => false)) 0 p a b Ha Hb) as S.
  unfold same_elem in S. rewrite Hp in S.
  assert (B : IsBaseType p || IsEnum p = true).
  { destruct Ha; try reflexivity. cbn in H. destruct H as [<-|[<-|[<-|[]]]]; reflexivity. }
  rewrite B in S. exact S.
Qed.

Lemma native_typed : forall p v, (p =? BINARY) = false -> native p v ->
  key_typed p v = true /\ go_map_type p = true /\ IsEmptyType p = false /\ IsBaseType p = true /\
  (p =? STOP) = false /\ (p =? VOID) = false.
Proof.
  intros p v Hp H. destruct H; try (repeat split; reflexivity); try discriminate.
  cbn in H. destruct H as [<-|[<-|[<-|[]]]]; repeat split; reflexivity.
Qed.

Lemma gm_get_ok : forall p m k, (p =? BINARY) = false -> native p k ->
  Forall (fun e => native p (fst e)) m -> gm_get m k = Ok (elookup m k).
Proof.
  intros p m k Hp Hk. induction m as [|[k' v'] m IH]; intros Hm; [reflexivity|].
  inversion Hm; subst. cbn [gm_get elookup fst] in *. rewrite (go_eq_native p) by auto. cbn [obind].
  destruct (str_eq (key k) (key k')); auto.
Qed.

(** Effect of inserting or replacing an entry. *)
Definition upserted (es : list (any * any)) (k v : any) (es' : list (any * any)) : Prop :=
  (forall q, elookup es' q = if str_eq (key q) (key k) then Some v else elookup es q) /\
  (forall s, In s (ekeys es') <-> (s = key k \/ In s (ekeys es))).

Lemma str_eq_sym : forall a b, str_eq a b = str_eq b a.
Proof.
  intros a b. destruct (str_eq a b) eqn:E, (str_eq b a) eqn:F; auto.
  - apply str_eq_iff in E. subst. rewrite str_eq_refl in F. discriminate.
  - apply str_eq_iff in F. subst. rewrite str_eq_refl in E. discriminate.
Qed.
Lemma str_eq_false : forall a b, str_eq a b = false <-> a <> b.
Proof.
  intros a b. rewrite <- not_true_iff_false, str_eq_iff. reflexivity.
Qed.

Lemma gm_set_ok : forall p m k v, (p =? BINARY) = false -> native p k ->
  Forall (fun e => native p (fst e)) m -> NoDup (ekeys m) ->
  exists m', gm_set m k v = Ok m' /\ Forall (fun e => native p (fst e)) m' /\ NoDup (ekeys m') /\
    upserted m k v m'.
Proof.
  intros p m k v Hp Hk. induction m as [|[k' v'] m IH]; intros Hm Hd.
  - exists [(k, v)]. split; [reflexivity|]. split; [constructor; auto|].
    split; [constructor; [intros []|constructor]|]. split.
    + intros q. cbn [elookup]. reflexivity.
    + intros s. cbn. intuition.
  - inversion Hm; subst. cbn [fst ekeys map] in *. inversion Hd; subst.
    cbn [gm_set]. rewrite (go_eq_native p) by auto. cbn [obind].
    destruct (str_eq (key k) (key k')) eqn:E.
    + apply str_eq_iff in E. exists ((k, v) :: m). split; [reflexivity|].
      split; [constructor; auto|]. split.
      { cbn [ekeys map fst]. rewrite E. constructor; auto. }
      split.
      * intros q. cbn [elookup]. rewrite E. destruct (str_eq (key q) (key k')); reflexivity.
      * intros s. cbn [ekeys map fst In]. rewrite E. intuition.
    + destruct (IH H2 H4) as (m' & E' & N' & D' & U1 & U2). rewrite E'. cbn [obind].
      exists ((k', v') :: m'). split; [reflexivity|]. split; [constructor; auto|]. split.
      { cbn [ekeys map fst]. constructor; [|exact D']. intros C. apply U2 in C as [C|C]; [|auto].
        apply str_eq_false in E. congruence. }
      split.
      * intros q. cbn [elookup]. rewrite U1.
        destruct (str_eq (key q) (key k')) eqn:F; [|reflexivity].
        apply str_eq_iff in F. rewrite F. rewrite str_eq_sym, E. reflexivity.
      * intros s. cbn [ekeys map fst In]. fold (ekeys m') (ekeys m). rewrite U2. tauto.
Qed.

Lemma list_get_ok : forall x f m k, native BINARY k ->
  Forall (fun e => native BINARY (fst e)) m -> list_get x f BINARY k m = Ok (elookup m k).
Proof.
  intros x f m k Hk. induction m as [|[k' v'] m IH]; intros Hm; [reflexivity|].
  inversion Hm; subst. cbn [list_get elookup fst] in *.
  assert (E : list_key_eq x f BINARY k k' = Ok (str_eq (key k) (key k'))).
  { inversion Hk; subst; [cbn in H; destruct H as [C|[C|[C|[]]]]; discriminate C|].
    inversion H1; subst; [cbn in H0; destruct H0 as [C|[C|[C|[]]]]; discriminate C|].
    cbn [list_key_eq key]. change (BINARY =? BINARY) with true. cbv iota. f_equal.
    rewrite bytes_Compare_String. destruct (str_eq s s0) eqn:E.
    - apply str_eq_iff in E. subst. apply Z.eqb_eq, CompareString_0. reflexivity.
    - apply Z.eqb_neq. rewrite CompareString_0. apply str_eq_false in E. congruence. }
  rewrite E. cbn [obind]. destruct (str_eq (key k) (key k')); auto.
Qed.

Lemma sorted_nodup : forall l : list (any * any),
  StronglySorted (fun a b => gt_ (fst a) (fst b)) l -> NoDup (ekeys l).
Proof.
  intros l S. induction S as [|a l S IH F]; [constructor|].
  cbn [ekeys map]. constructor; [|exact IH]. intros C. unfold ekeys in C. apply in_map_iff in C as (e & Ek & Hin).
  rewrite Forall_forall in F. specialize (F e Hin). unfold gt_ in F. rewrite Ek, str_lt_irrefl in F. discriminate.
Qed.

Lemma list_set_ok : forall x f p k v m, native p k ->
  Forall (fun e => native p (fst e)) m -> StronglySorted (fun a b => gt_ (fst a) (fst b)) m ->
  exists m', list_set x (S f) p k v m = Ok m' /\ Forall (fun e => native p (fst e)) m' /\
    StronglySorted (fun a b => gt_ (fst a) (fst b)) m' /\ upserted m k v m' /\
    (forall e, In e m' -> In e m \/ e = (k, v)).
Proof.
  intros x f p k v m Hk. induction m as [|[k' v'] m IH]; intros Hm Hs.
  - exists [(k, v)]. split; [reflexivity|]. split; [constructor; auto|].
    split; [constructor; constructor|]. split.
    + split; [intros q; reflexivity|]. intros s. cbn. intuition.
    + intros e [<-|[]]; auto.
  - inversion Hm; subst. inversion Hs; subst. cbn [fst] in *.
    cbn [list_set]. rewrite Compare_native by auto. cbn [obind andb].
    destruct (CompareString_cases (key k) (key k')) as (C1 & C2 & C3 & C4 & _).
    destruct C4 as [C|[C|C]]; rewrite C in *; cbn [Z.leb Z.eqb Z.compare].
    + assert (L : str_lt (key k) (key k') = true) by (apply C1; auto).
      destruct (IH H2 H3) as (m' & E & N & S' & [U1 U2] & Sub). rewrite E. cbn [obind].
      assert (Hne : str_eq (key k) (key k') = false).
      { apply str_eq_false. intros E'. rewrite E', str_lt_irrefl in L. discriminate. }
      exists ((k', v') :: m'). split; [reflexivity|]. split; [constructor; auto|]. split; [|split; [split|]].
      * constructor; [auto|]. apply Forall_forall. intros e He. rewrite Forall_forall in H4.
        destruct (Sub e He) as [He'| ->]; [apply H4, He'|exact L].
      * intros q. cbn [elookup]. rewrite U1.
        destruct (str_eq (key q) (key k')) eqn:F; [|reflexivity].
        apply str_eq_iff in F. rewrite F. rewrite str_eq_sym, Hne. reflexivity.
      * intros s. cbn [ekeys map fst In]. fold (ekeys m') (ekeys m). rewrite U2. tauto.
      * intros e [<-|He]; [left; left; auto|]. destruct (Sub e He); [left; right; auto|auto].
    + assert (Ek : key k = key k') by (apply C3; auto).
      exists ((k, v) :: m). split; [reflexivity|]. split; [constructor; auto|]. split; [|split; [split|]].
      * constructor; [auto|]. apply Forall_forall. intros e He. rewrite Forall_forall in H4.
        specialize (H4 e He). unfold gt_ in *. cbn [fst] in *. rewrite Ek. exact H4.
      * intros q. cbn [elookup]. rewrite Ek. destruct (str_eq (key q) (key k')); reflexivity.
      * intros s. cbn [ekeys map fst In]. rewrite Ek. intuition.
      * intros e [<-|He]; auto. left; right; auto.
    + assert (L : str_lt (key k') (key k) = true) by (apply C2; auto).
      exists ((k, v) :: (k', v') :: m). split; [reflexivity|]. split; [constructor; auto|]. split; [|split; [split|]].
      * constructor; [auto|]. constructor; [exact L|]. apply Forall_forall. intros e He. rewrite Forall_forall in H4.
        specialize (H4 e He). unfold gt_ in *. cbn [fst] in *. eapply str_lt_trans; eauto.
      * intros q. cbn [elookup]. reflexivity.
      * intros s. cbn [ekeys map fst In]. intuition.
      * intros e [<-|He]; auto.
Qed.

Lemma set_ok : forall x f p k v, minv p -> native (tm_kt p) k -> IsEmptyType (tm_vt p) = false ->
  CoerceData x (tm_vt p) v = Ok (v, true) ->
  exists p', tm_Set x (S f) p k v = Ok p' /\ minv p' /\ tm_kt p' = tm_kt p /\ tm_vt p' = tm_vt p /\
    tm_size p' = tm_size p /\ upserted (entries p) k v (entries p').
Proof.
  intros x f p k v [I1 I2 I3 I4 I5] Hk Hv Hc.
  assert (Hvt : (tm_vt p =? STOP) || (tm_vt p =? VOID) = false).
  { unfold IsEmptyType, mem in Hv. cbn [existsb] in Hv. rewrite orb_false_r in Hv. exact Hv. }
  unfold tm_Set.
  destruct (tm_kt p =? BINARY) eqn:Eb.
  - assert (Ebe : tm_kt p = BINARY) by lia. rewrite Ebe in *.
    change ((BINARY =? STOP) || (BINARY =? VOID)) with false. cbv iota zeta.
    rewrite (coerce_native x BINARY k Hk). cbn [obind negb]. rewrite Hvt, Hc. cbn [obind negb].
    change (negb (IsBaseType BINARY) || (BINARY =? BINARY)) with true. cbv iota.
    unfold entries in I3, I4, I5. rewrite Ebe in I3, I4, I5. change (BINARY =? BINARY) with true in *. cbv iota in I3, I4, I5.
    destruct (list_set_ok x f BINARY k v (tm_l p) Hk I3 (I5 eq_refl)) as (l' & E & N & S' & U & _).
    rewrite E. cbn [obind]. eexists. split; [reflexivity|].
    unfold entries. rewrite Ebe. cbn [tm_kt tm_vt tm_size tm_l tm_b]. change (BINARY =? BINARY) with true. cbv iota.
    split; [|auto]. constructor; unfold entries; cbn [tm_kt tm_l tm_b]; change (BINARY =? BINARY) with true; cbv iota; auto.
    apply sorted_nodup. exact S'.
  - destruct (native_typed _ _ Eb Hk) as (T1 & T2 & T3 & T4 & T5 & T6).
    rewrite T5, T6. cbn [orb]. rewrite (coerce_native x _ k Hk). cbn [obind negb]. rewrite Hvt, Hc. cbn [obind negb].
    rewrite T4, Eb. cbn [negb orb]. rewrite (native_not_nil _ _ Hk), T1.
    unfold entries in I3, I4, I5. rewrite Eb in I3, I4, I5.
    destruct (gm_set_ok (tm_kt p) (tm_b p) k v Eb Hk I3 I4) as (b' & E & N & D & U).
    rewrite E. cbn [obind]. eexists. split; [reflexivity|].
    unfold entries. cbn [tm_kt tm_vt tm_size tm_l tm_b]. rewrite Eb. split; [|auto].
    constructor; unfold entries; cbn [tm_kt tm_l tm_b]; rewrite ?Eb; auto.
    intros C. rewrite C in Eb. discriminate.
Qed.

Lemma native_scalar : forall p v, native p v -> scalar_type p = true.
Proof.
  intros p v H. destruct H; try reflexivity. cbn in H. destruct H as [<-|[<-|[<-|[]]]]; reflexivity.
Qed.

Lemma tm_run_app : forall x f h1 h2 p,
  tm_run x f p (h1 ++ h2) = (q <- tm_run x f p h1 ;; tm_run x f q h2).
Proof.
  intros x f. induction h1 as [|[k v] h1 IH]; intros h2 p; cbn [app tm_run obind]; [reflexivity|].
  destruct (tm_Set x f p k v); cbn [obind]; auto.
Qed.

Lemma last_set_snoc : forall h k' v' k v, last_set (h ++ [(k', v')]) k v <->
  ((scalar_eq k' k /\ v = v') \/ (~ scalar_eq k' k /\ last_set h k v)).
Proof.
  intros h k' v' k v. split.
  - intros (h1 & a & h2 & E & Ea & R).
    destruct h2 as [|z h2'] using rev_ind.
    + apply app_inj_tail in E as [<- E]. injection E as -> ->. left. auto.
    + clear IHh2'. rewrite app_comm_cons, app_assoc in E. apply app_inj_tail in E as [-> <-]. right.
      split; [apply (R k' v'), in_or_app; right; left; auto|].
      exists h1, a, h2'. split; [reflexivity|]. split; [auto|]. intros k2 v2 H. apply (R k2 v2), in_or_app; auto.
  - intros [[E ->]|[Ne (h1 & a & h2 & -> & Ea & R)]].
    + exists h, k', []. split; [reflexivity|]. split; [auto|intros ? ? []].
    + exists h1, a, (h2 ++ [(k', v')]). rewrite <- app_assoc. split; [reflexivity|]. split; [auto|].
      intros k2 v2 H. apply in_app_or in H as [H|[H|[]]]; [eapply R; eauto|]. injection H as <- <-. exact Ne.
Qed.

Lemma empty_inv : forall kt vt size, scalar_type kt = true -> minv (NewTMap kt vt size).
Proof.
  intros. constructor; unfold entries; cbn; auto; destruct (kt =? BINARY); cbn; auto; constructor.
Qed.

(** After any history of sets: an entry per distinct key, holding the last value. *)
Theorem tm_history : forall x f kt vt size h, scalar_type kt = true -> IsEmptyType vt = false ->
  (forall k v, In (k, v) h -> native kt k /\ CoerceData x vt v = Ok (v, true)) ->
  exists p, tm_run x (S f) (NewTMap kt vt size) h = Ok p /\ minv p /\ tm_kt p = kt /\ tm_vt p = vt /\
    tm_size p = size /\
    (forall k v, native kt k -> (elookup (entries p) k = Some v <-> last_set h k v)) /\
    (forall s, In s (ekeys (entries p)) <-> exists k v, In (k, v) h /\ key k = s).
Proof.
  intros x f kt vt size h Hkt Hvt. induction h as [|[k v] h IH] using rev_ind; intros Hh.
  - exists (NewTMap kt vt size). split; [reflexivity|]. split; [apply empty_inv; auto|].
    split; [reflexivity|]. split; [reflexivity|]. split; [reflexivity|].
    assert (entries (NewTMap kt vt size) = []) as -> by (unfold entries; cbn; destruct (kt =? BINARY); reflexivity).
    split.
    + intros k v Hk. cbn. split; [discriminate|]. intros (h1 & a & h2 & E & _). destruct h1; discriminate.
    + intros s. cbn. split; [intros []|intros (k & v & [] & _)].
  - destruct IH as (p & E & I & K1 & K2 & K3 & L & D).
    { intros k' v' H. apply Hh, in_or_app; auto. }
    destruct (Hh k v) as [Hk Hc]; [apply in_or_app; right; left; auto|].
    rewrite tm_run_app, E. cbn [obind tm_run].
    destruct (set_ok x f p k v I) as (p' & E' & I' & K1' & K2' & K3' & U1 & U2); try congruence.
    rewrite E'. cbn [obind]. exists p'. split; [reflexivity|]. split; [auto|].
    split; [congruence|]. split; [congruence|]. split; [congruence|]. split.
    + intros q w Hq. rewrite U1, last_set_snoc, <- (key_eq kt k q) by auto.
      destruct (str_eq (key q) (key k)) eqn:Eq.
      * apply str_eq_iff in Eq. split; [intros H; injection H as ->; left; auto|].
        intros [[_ ->]|[N _]]; [reflexivity|]. congruence.
      * apply str_eq_false in Eq. rewrite (L q w Hq). split; [intros H; right; split; auto; congruence|].
        intros [[N _]|[_ H]]; [congruence|exact H].
    + intros s. rewrite U2, D. split.
      * intros [->|(k' & v' & H & Ek)]; [exists k, v; split; [apply in_or_app; right; left|]; auto|].
        exists k', v'. split; [apply in_or_app; auto|auto].
      * intros (k' & v' & H & Ek). apply in_app_or in H as [H|[H|[]]]; [right; eauto|].
        injection H as <- <-. left. auto.
Qed.

Lemma scalar_type_facts : forall kt, scalar_type kt = true ->
  IsEmptyType kt = false /\ (kt =? BINARY = false -> go_map_type kt = true).
Proof.
  intros kt H. unfold scalar_type in H. split.
  - unfold go_map_type, mem, IsEmptyType, mem in *. cbn [existsb] in *. unfold BOOL, BYTE, DOUBLE, I16, I32, I64, STRING, UTF8, UTF16, BINARY, STOP, VOID in *. lia.
  - intros E. rewrite E, orb_false_r in H. exact H.
Qed.

Lemma entries_bin : forall p, tm_kt p = BINARY -> entries p = tm_l p.
Proof. intros p E. unfold entries. rewrite E. reflexivity. Qed.
Lemma entries_base : forall p, (tm_kt p =? BINARY) = false -> entries p = tm_b p.
Proof. intros p E. unfold entries. rewrite E. reflexivity. Qed.

Theorem get_ok : forall x f p k, minv p -> native (tm_kt p) k ->
  tm_Get x f p k = Ok (match elookup (entries p) k with
                       | Some v => (v, true)
                       | None => (ANil, (tm_kt p =? BOOL) && negb (length (entries p) =? 0)%nat)
                       end) /\
  tm_Contains x f p k = Ok (match elookup (entries p) k with Some _ => true | None => false end).
Proof.
  intros x f p k [I1 I2 I3 I4 I5] Hk. destruct (scalar_type_facts _ I1) as [T0 T1].
  unfold tm_Get, tm_Contains. rewrite T0, (native_not_nil _ _ Hk), (coerce_native x _ k Hk). cbn [obind negb].
  rewrite (native_not_nil _ _ Hk).
  destruct (tm_kt p =? BINARY) eqn:Eb.
  - assert (Ebe : tm_kt p = BINARY) by lia. rewrite (entries_bin p Ebe) in *. rewrite Ebe in *.
    change (BINARY =? BOOL) with false. change (go_map_type BINARY) with false.
    change (mem BINARY [BINARY; STRUCT; MAP; SET; LIST]) with true. cbv iota.
    rewrite list_get_ok by auto. cbn [obind andb].
    destruct (elookup (tm_l p) k); split; reflexivity.
  - rewrite (entries_base p Eb) in *. destruct (native_typed _ _ Eb Hk) as (Ty & _).
    rewrite (T1 eq_refl), Ty.
    destruct (tm_b p) as [|e m] eqn:Em.
    + cbn [elookup gm_get obind length Nat.eqb negb andb]. rewrite !andb_false_r, andb_true_r.
      destruct (tm_kt p =? BOOL), (tm_kt p =? BYTE); split; reflexivity.
    + cbn [length Nat.eqb negb]. cbv iota. rewrite !andb_false_r, andb_true_r.
      rewrite (gm_get_ok (tm_kt p)) by auto. cbn [obind].
      destruct (tm_kt p =? BOOL); destruct (elookup (e :: m) k); split; reflexivity.
Qed.

(** Len counts the entries (an empty BINARY-keyed map reports its size hint); Keys and Values
    list them, each once. *)
Theorem keys_ok : forall x a p, minv p -> (forall t l, Permutation (x_order x t l) l) ->
  (tm_kt p = BINARY -> entries p = [] -> tm_size p = 0) ->
  tm_Len p = Z.of_nat (length (entries p)) /\
  (exists ks, tm_Keys x a p = Ok ks /\ Permutation ks (map fst (entries p))) /\
  (exists vs, tm_Values x a p = Ok vs /\ Permutation vs (map snd (entries p))).
Proof.
  intros x a p [I1 I2 I3 I4 I5] Hp Hs. destruct (scalar_type_facts _ I1) as [T0 T1].
  assert (T0' : mem (tm_kt p) [STOP; VOID] = false) by exact T0.
  assert (Len : tm_Len p = Z.of_nat (length (entries p)) /\ exists es1 es2,
     map_entries x (2 * a) (tm_kt p) (tm_l p) (tm_b p) = Ok es1 /\ Permutation es1 (entries p) /\
     map_entries x (2 * a + 1) (tm_kt p) (tm_l p) (tm_b p) = Ok es2 /\ Permutation es2 (entries p)).
  { unfold tm_Len, map_Len, map_entries. rewrite T0'.
    destruct (tm_kt p =? BINARY) eqn:Eb.
    - assert (Ebe : tm_kt p = BINARY) by lia. rewrite (entries_bin p Ebe) in *. rewrite Ebe in *.
      cbn [mem existsb Z.eqb BINARY orb Pos.eqb BOOL BYTE I16 I32 I64 DOUBLE STRING UTF8 UTF16 STRUCT].
      split; [|exists (tm_l p), (tm_l p); repeat split; auto].
      destruct (tm_l p) eqn:El; cbn [length Nat.eqb negb]; [apply Hs; auto|reflexivity].
    - rewrite (entries_base p Eb) in *. rewrite I2. cbn [length Nat.eqb negb].
      assert (G : mem (tm_kt p) [BOOL; BYTE; I16; I32; I64; DOUBLE; STRING; UTF8; UTF16] = true).
      { specialize (T1 eq_refl). unfold go_map_type, mem in *. cbn [existsb] in *. lia. }
      rewrite G. split; [reflexivity|]. eexists _, _. repeat split; apply Hp. }
  destruct Len as (Len & es1 & es2 & E1 & P1 & E2 & P2). split; [exact Len|].
  unfold tm_Keys, tm_Values, map_Keys, map_Values. rewrite E1, E2. cbn [obind].
  unfold tm_Len in Len. rewrite Len.
  assert (F : forall vs n, length vs = n -> fill (Z.of_nat n) vs = Ok vs).
  { intros vs n <-. unfold fill. replace (Z.of_nat (length vs) <? 0) with false by lia.
    rewrite Z.ltb_irrefl. rewrite Nat2Z.id, Nat.sub_diag. cbn [repeat]. rewrite app_nil_r. reflexivity. }
  rewrite !F by (rewrite map_length; apply Permutation_length; auto).
  split; eexists; (split; [reflexivity|]); apply Permutation_map; auto.
Qed.
