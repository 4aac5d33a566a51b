(** tset.go *)
From Coq Require Import ZArith List Bool Lia Sorted.
From Coq Require Import ZifyBool ZifyNat.
From Verif Require Import Base Arith F64 Strconv TField GoVal Compare CompareProofs TList.
Import ListNotations.
Open Scope Z_scope.
Ltac Zify.zify_post_hook ::= Z.div_mod_to_equations.

(** tSet, tset.go:43-47; container/list as a list, front first. *)
Record tset : Type := MkTs { ts_et : Z; ts_size : Z; ts_l : list any }.

(** NewTSet, tset.go:49-51. *)
Definition NewTSet (t s : Z) : tset := MkTs t s [].
(** Len, tset.go:69-74; Values, tset.go:212-221. *)
Definition ts_Len (p : tset) : Z := set_Len (ts_size p) (ts_l p).
Definition ts_Values (p : tset) : list any := ts_l p.

Section Ops.
Variable x : ext.
Variable fuel : nat.

(** The loop of Add, tset.go:85-92: stop at the first element that is not above [data]. *)
Fixpoint add_loop (et : Z) (data : any) (l : list any) : outcome (list any) :=
  match l with
  | [] => Ok []
  | e :: l' =>
    ' (cmp, ok) <- Compare x fuel et data e ;;
    if ok && (0 <=? cmp) then Ok (if 0 <? cmp then data :: e :: l' else e :: l')
    else r <- add_loop et data l' ;; Ok (e :: r)
  end.
(** Add, tset.go:80-95. *)
Definition ts_Add (p : tset) (other : any) : outcome tset :=
  ' (data, ok) <- CoerceData x (ts_et p) other ;;
  if (ok : bool) then
    match ts_l p with
    | [] => Ok (MkTs (ts_et p) (ts_size p) [data])
    | l => l' <- add_loop (ts_et p) data l ;; Ok (MkTs (ts_et p) (ts_size p) l')
    end
  else Ok p.

(** find, tset.go:118-210: position of the element, or -1 for nil. *)
Definition ts_find (p : tset) (d : any) : outcome Z :=
  if is_nil d then find_idx (fun v => Ok (is_nil v)) (ts_l p) 0
  else
    ' (v, ok) <- CoerceData x (ts_et p) d ;;
    if is_nil v || negb ok then Ok (-1)
    else find_idx (same_elem x fuel (ts_et p) v) (ts_l p) 0.

(** Contains, tset.go:76-78. *)
Definition ts_Contains (p : tset) (d : any) : outcome bool :=
  i <- ts_find p d ;; Ok (negb (i =? -1)).

Fixpoint remove_at {A} (l : list A) (n : nat) : list A :=
  match l, n with
  | [], _ => []
  | _ :: l', O => l'
  | a :: l', S n' => a :: remove_at l' n'
  end.
(** Remove, tset.go:97-102. *)
Definition ts_Remove (p : tset) (d : any) : outcome tset :=
  i <- ts_find p d ;;
  if i =? -1 then Ok p
  else Ok (MkTs (ts_et p) (ts_size p) (remove_at (ts_l p) (Z.to_nat i))).

End Ops.

(** ** Specification *)
Inductive sop : Type := SAdd (v : any) | SRemove (v : any).
Definition op_val (o : sop) : any := match o with SAdd v | SRemove v => v end.

(** [v] was added and not removed since. *)
Definition added (h : list sop) (v : any) : Prop :=
  exists h1 a h2, h = h1 ++ SAdd a :: h2 /\ scalar_eq a v /\
    forall b, In (SRemove b) h2 -> ~ scalar_eq b v.

(** The histories the code handles: an element added to a non-empty set is not below every
    element in it. *)
Definition no_new_minimum (et : Z) (h : list sop) : Prop :=
  forall h1 a h2, h = h1 ++ SAdd a :: h2 ->
    (forall v, native et v -> ~ added h1 v) \/
    (exists v, native et v /\ added h1 v /\ ~ scalar_lt a v).

Fixpoint ts_run (x : ext) (fuel : nat) (p : tset) (h : list sop) : outcome tset :=
  match h with
  | [] => Ok p
  | SAdd v :: h' => q <- ts_Add x fuel p v ;; ts_run x fuel q h'
  | SRemove v :: h' => q <- ts_Remove x fuel p v ;; ts_run x fuel q h'
  end.

(** ** Proofs *)
Definition gt_ (a b : any) : Prop := str_lt (key b) (key a) = true.
Record inv (p : tset) : Prop := {
  inv_nat : Forall (native (ts_et p)) (ts_l p);
  inv_sorted : StronglySorted gt_ (ts_l p)
}.
Definition kin (v : any) (l : list any) : Prop := exists e, In e l /\ key e = key v.

Lemma same_elem_native : forall x f p d v, native p d -> native p v ->
  same_elem x f p d v = Ok (str_eq (key d) (key v)).
Proof.
  assert (One : forall a b, str_eq [a] [b] = (a =? b)).
  { intros. cbn. apply andb_true_r. }
  intros x f p d v Hd Hv. unfold same_elem.
  destruct Hd; inversion Hv; subst;
    try (match goal with H : In _ [STRING; UTF8; UTF16] |- _ =>
           solve [cbn in H; destruct H as [C|[C|[C|[]]]]; discriminate C] end);
    try (cbn -[str_eq key]; cbn [key]; rewrite One; reflexivity).
  - destruct b, b0; reflexivity.
  - change (Ok (f64_eq b b0) = Ok (str_eq [f64_key b] [f64_key b0])). rewrite One.
    unfold f64_eq. assert (f64_is_nan b = false) as -> by (apply nan_bits; auto).
    assert (f64_is_nan b0 = false) as -> by (apply nan_bits; auto). reflexivity.
  - cbn in H. destruct H as [<-|[<-|[<-|[]]]]; reflexivity.
  - change (Ok (bytes_Compare s s0 =? 0) = Ok (str_eq s s0)). rewrite bytes_Compare_String. f_equal.
    destruct (str_eq s s0) eqn:E.
    + apply str_eq_iff in E. apply Z.eqb_eq, CompareString_0, E.
    + apply Z.eqb_neq. rewrite CompareString_0. intros ->. rewrite str_eq_refl in E. discriminate.
Qed.

Lemma find_idx_ext : forall f g l i, (forall v, In v l -> f v = g v) -> find_idx f l i = find_idx g l i.
Proof.
  intros f g. induction l as [|v l IH]; intros i H; [reflexivity|].
  cbn [find_idx]. rewrite (H v) by (left; auto). destruct (g v) as [[]| |]; cbn [obind]; auto.
  apply IH. intros; apply H; right; auto.
Qed.

Lemma find_native : forall x f p d, inv p -> native (ts_et p) d ->
  ts_find x f p d = find_idx (fun v => Ok (str_eq (key d) (key v))) (ts_l p) 0.
Proof.
  intros x f p d [I1 I2] Hd. unfold ts_find.
  rewrite (native_not_nil _ _ Hd), (coerce_native x _ _ Hd). cbn [obind].
  rewrite (native_not_nil _ _ Hd). cbn [negb orb]. apply find_idx_ext.
  intros v Hv. apply same_elem_native; auto. rewrite Forall_forall in I1. auto.
Qed.

Lemma find_pos : forall (f : any -> bool) l i,
  (find_idx (fun v => Ok (f v)) l i = Ok (-1) /\ forall v, In v l -> f v = false) \/
  exists a e b, l = a ++ e :: b /\ f e = true /\
    find_idx (fun v => Ok (f v)) l i = Ok (i + Z.of_nat (length a)).
Proof.
  intros f. induction l as [|v l IH]; intros i; cbn [find_idx obind].
  - left. split; [auto|intros v []].
  - destruct (f v) eqn:E.
    + right. exists [], v, l. cbn [length]. rewrite Z.add_0_r. auto.
    + destruct (IH (i + 1)) as [[H1 H2]|(a & e & b & -> & H1 & H2)].
      * left. split; [auto|]. intros w [<-|W]; auto.
      * right. exists (v :: a), e, b. split; [reflexivity|]. split; [auto|]. rewrite H2. f_equal. cbn [length]. lia.
Qed.

Lemma contains_kin : forall x f p d, inv p -> native (ts_et p) d ->
  exists b, ts_Contains x f p d = Ok b /\ (b = true <-> kin d (ts_l p)).
Proof.
  intros x f p d I Hd. unfold ts_Contains. rewrite find_native by auto.
  destruct (find_pos (fun v => str_eq (key d) (key v)) (ts_l p) 0) as [[H1 H2]|(a & e & b & H0 & H1 & H2)].
  - rewrite H1. cbn [obind]. exists false. split; [reflexivity|]. split; [discriminate|].
    intros (e & Ein & Ek). specialize (H2 e Ein). rewrite Ek, str_eq_refl in H2. discriminate.
  - rewrite H2. cbn [obind]. exists true. split.
    + f_equal. replace (0 + Z.of_nat (length a) =? -1) with false by lia. reflexivity.
    + split; [|auto]. intros _. exists e. rewrite H0. split; [apply in_or_app; right; left; auto|].
      apply str_eq_iff in H1. auto.
Qed.

Lemma remove_at_app : forall A (a : list A) e b, remove_at (a ++ e :: b) (length a) = a ++ b.
Proof. induction a; cbn; intros; [auto|f_equal; auto]. Qed.

Lemma sorted_mid : forall a e b, StronglySorted gt_ (a ++ e :: b) ->
  StronglySorted gt_ (a ++ b) /\ (forall v, In v (a ++ b) -> key v <> key e).
Proof.
  induction a as [|y a IH]; intros e b S; cbn [app] in *.
  - inversion S; subst. split; [auto|]. intros v Hv Ek. rewrite Forall_forall in H2.
    specialize (H2 v Hv). unfold gt_ in H2. rewrite Ek, str_lt_irrefl in H2. discriminate.
  - inversion S; subst. destruct (IH _ _ H1) as [S1 S2]. rewrite Forall_forall in H2. split.
    + constructor; [auto|]. apply Forall_forall. intros v Hv. apply H2.
      apply in_app_or in Hv as [Hv|Hv]; apply in_or_app; [left|right; right]; auto.
    + intros v [<-|Hv]; [|auto]. intros Ek. specialize (H2 e).
      assert (In e (a ++ e :: b)) as Hin by (apply in_or_app; right; left; auto).
      specialize (H2 Hin). unfold gt_ in H2. rewrite Ek, str_lt_irrefl in H2. discriminate.
Qed.

Lemma remove_ok : forall x f p d, inv p -> native (ts_et p) d ->
  exists p', ts_Remove x f p d = Ok p' /\ inv p' /\ ts_et p' = ts_et p /\ ts_size p' = ts_size p /\
    forall v, kin v (ts_l p') <-> (kin v (ts_l p) /\ key v <> key d).
Proof.
  intros x f p d I Hd. unfold ts_Remove. rewrite find_native by auto.
  destruct (find_pos (fun v => str_eq (key d) (key v)) (ts_l p) 0) as [[H1 H2]|(a & e & b & H0 & H1 & H2)].
  - rewrite H1. cbn [obind]. exists p. split; [reflexivity|]. repeat split; auto; try (apply I).
    + intros C. destruct H as (e & Ein & Ek). specialize (H2 e Ein). rewrite Ek, C, str_eq_refl in H2. discriminate.
    + intros (H & _). exact H.
  - rewrite H2. cbn [obind]. replace (0 + Z.of_nat (length a) =? -1) with false by lia.
    replace (Z.to_nat (0 + Z.of_nat (length a))) with (length a) by lia.
    rewrite H0, remove_at_app. apply str_eq_iff in H1.
    destruct I as [I1 I2]. rewrite H0 in I1, I2. destruct (sorted_mid _ _ _ I2) as [S1 S2].
    eexists. split; [reflexivity|]. cbn [ts_et ts_size ts_l]. split.
    { constructor; cbn [ts_et ts_l]; [|exact S1].
      apply Forall_app in I1 as [I1 I1']. inversion I1'; subst. apply Forall_app; auto. }
    split; [reflexivity|]. split; [reflexivity|]. intros v. split.
    + intros (w & Hw & Ek). split; [|intros C; apply (S2 w Hw); congruence].
      exists w. split; [|exact Ek]. apply in_app_or in Hw as [Hw|Hw]; apply in_or_app; [left|right; right]; auto.
    + intros [(w & Hw & Ek) Ne]. exists w. split; [|exact Ek].
      apply in_app_or in Hw as [Hw|[Hw|Hw]]; apply in_or_app; auto. subst w. congruence.
Qed.

Lemma add_loop_ok : forall x f et a l, native et a -> Forall (native et) l -> StronglySorted gt_ l ->
  exists l', add_loop x (S f) et a l = Ok l' /\ Forall (native et) l' /\ StronglySorted gt_ l' /\
    (forall v, In v l' -> In v l \/ v = a) /\
    (forall v, kin v l' <-> (kin v l \/ (key v = key a /\ exists e, In e l /\ str_lt (key a) (key e) = false))).
Proof.
  intros x f et a l Ha. induction l as [|e l IH]; intros Hn Hs.
  - exists []. split; [reflexivity|]. split; [constructor|]. split; [constructor|]. split; [auto|].
    intros v. split; [auto|]. intros [H|(_ & e & [] & _)]. exact H.
  - inversion Hn; subst. inversion Hs; subst.
    cbn [add_loop]. rewrite Compare_native by auto. cbn [obind andb].
    destruct (CompareString_cases (key a) (key e)) as (C1 & C2 & C3 & C4 & _).
    destruct C4 as [C|[C|C]]; rewrite C in *.
    + (* a below e: go on *)
      cbn [Z.leb Z.compare]. assert (L : str_lt (key a) (key e) = true) by (apply C1; auto).
      destruct (IH H2 H3) as (l' & E & N & S' & Sub & K). rewrite E. cbn [obind].
      exists (e :: l'). split; [reflexivity|]. split; [constructor; auto|]. split.
      { constructor; [auto|]. apply Forall_forall. intros v Hv. rewrite Forall_forall in H4.
        destruct (Sub v Hv) as [Hv'| ->]; [apply H4, Hv'|exact L]. }
      split. { intros v [<-|Hv]; [left; left; auto|]. destruct (Sub v Hv); [left; right; auto|auto]. }
      intros v. split.
      * intros (w & [<-|Hw] & Ek); [left; exists e; split; [left|]; auto|].
        assert (kin v l') as Kv by (exists w; auto). apply K in Kv as [(w' & Hw' & Ek')|(Ek' & e' & He' & L')].
        { left. exists w'. split; [right|]; auto. }
        { right. split; [auto|]. exists e'. split; [right|]; auto. }
      * intros [(w & [<-|Hw] & Ek)|(Ek & e' & [<-|He'] & L')].
        { exists e. split; [left|]; auto. }
        { assert (kin v l') as (w' & ? & ?) by (apply K; left; exists w; auto). exists w'. split; [right|]; auto. }
        { congruence. }
        { assert (kin v l') as (w' & ? & ?) by (apply K; right; split; [auto|]; exists e'; auto). exists w'. split; [right|]; auto. }
    + cbn [Z.leb Z.ltb Z.compare]. exists (e :: l). split; [reflexivity|]. split; [auto|]. split; [auto|]. split; [auto|].
      intros v. split; [auto|]. intros [H|(Ek & _)]; [exact H|]. exists e. split; [left; auto|].
      assert (key a = key e) by (apply C3; auto). congruence.
    + cbn [Z.leb Z.ltb Z.compare]. assert (L : str_lt (key e) (key a) = true) by (apply C2; auto).
      exists (a :: e :: l). split; [reflexivity|]. split; [constructor; auto|]. split.
      { constructor; [auto|]. constructor; [exact L|]. apply Forall_forall. intros v Hv.
        rewrite Forall_forall in H4. unfold gt_ in *. eapply str_lt_trans; [apply H4, Hv|exact L]. }
      split. { intros v [<-|Hv]; auto. }
      intros v. split.
      * intros (w & [<-|Hw] & Ek); [right|left; exists w; auto].
        split; [auto|]. exists e. split; [left; auto|]. apply str_lt_asym, L.
      * intros [(w & Hw & Ek)|(Ek & _)]; [exists w; split; [right|]; auto|]. exists a. split; [left|]; auto.
Qed.

(** Exactly what Add does: nothing when the new element is below every element of a non-empty set. *)
Lemma add_ok : forall x f p a, inv p -> native (ts_et p) a ->
  exists p', ts_Add x (S f) p a = Ok p' /\ inv p' /\ ts_et p' = ts_et p /\ ts_size p' = ts_size p /\
    forall v, kin v (ts_l p') <->
      (kin v (ts_l p) \/ (key v = key a /\ (ts_l p = [] \/ exists e, In e (ts_l p) /\ str_lt (key a) (key e) = false))).
Proof.
  intros x f p a [I1 I2] Ha. unfold ts_Add. rewrite coerce_native by auto. cbn [obind].
  destruct (ts_l p) as [|e l] eqn:El.
  - eexists. split; [reflexivity|]. cbn [ts_et ts_size ts_l]. split.
    { constructor; cbn; [constructor; auto|]. constructor; [constructor|constructor]. }
    split; [reflexivity|]. split; [reflexivity|]. intros v. split.
    + intros (w & [<-|[]] & Ek). right. auto.
    + intros [(w & [] & _)|(Ek & _)]. exists a. split; [left|]; auto.
  - rewrite <- El in *. destruct (add_loop_ok x f (ts_et p) a (ts_l p) Ha I1 I2) as (l' & E & N & S' & Sub & K).
    rewrite E. cbn [obind]. eexists. split; [reflexivity|]. cbn [ts_et ts_size ts_l]. split; [constructor; auto|].
    split; [reflexivity|]. split; [reflexivity|]. intros v. rewrite K.
    split; (intros [H|(H1 & H2)]; [auto|right; split; [auto|]]); [right; auto|].
    destruct H2 as [H2|H2]; [congruence|exact H2].
Qed.

Lemma added_snoc : forall h o v, added (h ++ [o]) v <->
  match o with
  | SAdd a => added h v \/ scalar_eq a v
  | SRemove b => added h v /\ ~ scalar_eq b v
  end.
Proof.
  intros h o v. split.
  - intros (h1 & a & h2 & E & Ea & R).
    destruct h2 as [|z h2'] using rev_ind.
    + apply app_inj_tail in E as [<- ->]. right. exact Ea.
    + clear IHh2'. rewrite app_comm_cons, app_assoc in E. apply app_inj_tail in E as [-> ->].
      assert (A : added (h1 ++ SAdd a :: h2') v).
      { exists h1, a, h2'. split; [reflexivity|]. split; [auto|]. intros b Hb. apply R. apply in_or_app; auto. }
      destruct z as [c|c]; [left; exact A|]. split; [exact A|]. apply R. apply in_or_app; right; left; auto.
  - destruct o as [a|b].
    + intros [(h1 & c & h2 & -> & Ea & R)|Ea].
      * exists h1, c, (h2 ++ [SAdd a]). rewrite <- app_assoc. split; [reflexivity|]. split; [auto|].
        intros b Hb. apply in_app_or in Hb as [Hb|[Hb|[]]]; [auto|discriminate].
      * exists h, a, []. split; [reflexivity|]. split; [auto|intros b []].
    + intros [(h1 & c & h2 & -> & Ea & R) Nb].
      exists h1, c, (h2 ++ [SRemove b]). rewrite <- app_assoc. split; [reflexivity|]. split; [auto|].
      intros b' Hb. apply in_app_or in Hb as [Hb|[Hb|[]]]; [auto|congruence].
Qed.

Lemma ts_run_app : forall x f h1 h2 p,
  ts_run x f p (h1 ++ h2) = (q <- ts_run x f p h1 ;; ts_run x f q h2).
Proof.
  intros x f. induction h1 as [|[v|v] h1 IH]; intros h2 p; cbn [app ts_run obind]; [reflexivity| |].
  - destruct (ts_Add x f p v); cbn [obind]; auto.
  - destruct (ts_Remove x f p v); cbn [obind]; auto.
Qed.

(** A handled history: the contents are exactly the elements added and not removed since. *)
Theorem ts_history : forall x f et size h,
  (forall o, In o h -> native et (op_val o)) -> no_new_minimum et h ->
  exists p, ts_run x (S f) (NewTSet et size) h = Ok p /\ inv p /\ ts_et p = et /\ ts_size p = size /\
    forall v, native et v -> (kin v (ts_l p) <-> added h v).
Proof.
  intros x f et size h. induction h as [|o h IH] using rev_ind; intros Hn Hm.
  - exists (NewTSet et size). split; [reflexivity|]. split; [constructor; constructor|].
    split; [reflexivity|]. split; [reflexivity|]. intros v Hv. split.
    + intros (e & [] & _).
    + intros (h1 & a & h2 & E & _). destruct h1; discriminate.
  - destruct IH as (p & E & I & Et & Es & K).
    { intros o' Ho'. apply Hn. apply in_or_app; auto. }
    { intros h1 a h2 Eh. apply (Hm h1 a (h2 ++ [o])). rewrite Eh, <- app_assoc. reflexivity. }
    assert (Ho : native et (op_val o)) by (apply Hn, in_or_app; right; left; auto).
    rewrite ts_run_app, E. cbn [obind].
    assert (Nat_in : forall w, In w (ts_l p) -> native et w).
    { intros w Hw. destruct I as [I1 _]. rewrite Forall_forall, Et in I1. auto. }
    destruct o as [a|b]; cbn [op_val ts_run] in *.
    + destruct (add_ok x f p a I) as (p' & E' & I' & Et' & Es' & K'); [congruence|].
      rewrite E'. cbn [obind]. exists p'. split; [reflexivity|]. split; [auto|].
      split; [congruence|]. split; [congruence|]. intros v Hv.
      rewrite K', added_snoc, (K v Hv), <- (key_eq et a v) by auto. split.
      * intros [H|[H _]]; auto.
      * intros [H|H]; [auto|]. right. split; [auto|].
        destruct (Hm h a [] eq_refl) as [Em|(w & Hwn & Hw & Lw)].
        { left. destruct (ts_l p) as [|e l] eqn:El; [reflexivity|]. exfalso.
          assert (native et e) by (apply Nat_in; left; auto).
          apply (Em e); [auto|]. apply K; [auto|]. exists e. split; [left|]; auto. }
        { right. 
          apply K in Hw; [|auto]. destruct Hw as (e & He & Ek). exists e. split; [auto|].
          apply not_true_is_false. intros C. apply Lw. apply (key_lt et); auto. congruence. }
    + destruct (remove_ok x (S f) p b I) as (p' & E' & I' & Et' & Es' & K'); [congruence|].
      rewrite E'. cbn [obind]. exists p'. split; [reflexivity|]. split; [auto|].
      split; [congruence|]. split; [congruence|]. intros v Hv.
      rewrite K', added_snoc, (K v Hv), <- (key_eq et b v) by auto.
      split; intros [H1 H2]; split; auto.
Qed.

(** Values are strictly descending, hence without repetition; Len counts them (an empty set
    reports the size hint given at creation). *)
Theorem ts_values : forall p, inv p ->
  StronglySorted (fun a b => scalar_lt b a) (ts_Values p) /\ Forall (native (ts_et p)) (ts_Values p) /\
  (ts_Values p <> [] -> ts_Len p = Z.of_nat (length (ts_Values p))) /\
  (ts_Values p = [] -> ts_Len p = ts_size p).
Proof.
  intros p [I1 I2]. unfold ts_Values, ts_Len, set_Len. split.
  - clear -I1 I2. induction I2 as [|a l S IH F]; [constructor|].
    inversion I1; subst. constructor; [apply IH; auto|]. apply Forall_forall. intros v Hv.
    rewrite Forall_forall in F, H2. apply (key_lt (ts_et p)); auto. apply F, Hv.
  - split; [exact I1|]. destruct (ts_l p); cbn; split; intros; congruence.
Qed.
