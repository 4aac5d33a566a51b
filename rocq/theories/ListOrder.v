(** Comparison of list and set objects, nested to any depth: specification and proofs. *)
From Coq Require Import ZArith List Bool Lia.
From Coq Require Import ZifyBool ZifyNat.
From Verif Require Import Base Arith F64 Strconv TField GoVal Compare CompareProofs TList TSet.
Import ListNotations.
Open Scope Z_scope.

(** ** Specification *)

(** Lists and sets of scalars, lists and sets.  [h] tells which object lives at an address, so
    that two values with the same positive address are the same object. *)
Inductive lval (h : Z -> any) : Z -> any -> Prop :=
| lv_scalar p v : native p v -> lval h p v
| lv_list a et l : (0 < a -> h a = AList a et l) -> Forall (lval h et) l -> lval h LIST (AList a et l)
| lv_set a et n l : (0 < a -> h a = ASet a et n l) -> Forall (lval h et) l -> lval h SET (ASet a et n l).

(** Lexicographic order of two lists of the same length. *)
Inductive lexl (lt eq : any -> any -> Prop) : list any -> list any -> Prop :=
| lexl_hd x y a b : lt x y -> lexl lt eq (x :: a) (y :: b)
| lexl_tl x y a b : eq x y -> lexl lt eq a b -> lexl lt eq (x :: a) (y :: b).

(** Equal values: equal scalars, containers of one element type with equal elements in order
    (and, for empty sets, the same size hint). *)
Inductive veq : any -> any -> Prop :=
| veq_scalar p i j : native p i -> native p j -> scalar_eq i j -> veq i j
| veq_list a b et l l' : Forall2 veq l l' -> veq (AList a et l) (AList b et l')
| veq_set a b et n n' l l' : Forall2 veq l l' -> (l = [] -> n = n') -> veq (ASet a et n l) (ASet b et n' l').

(** What a set gives as its length: the number of its elements, but the size hint if it has none. *)
Definition declared (n : Z) (l : list any) : Z :=
  match l with [] => n | _ => Z.of_nat (length l) end.

(** Order: scalars as in C36; containers by element type, then by length, then by the first
    element that differs. *)
Inductive vlt : any -> any -> Prop :=
| vlt_scalar p i j : native p i -> native p j -> scalar_lt i j -> vlt i j
| vlt_ltype a b et et' l l' : et < et' -> vlt (AList a et l) (AList b et' l')
| vlt_llen a b et l l' : (length l < length l')%nat -> vlt (AList a et l) (AList b et l')
| vlt_lelem a b et l l' : length l = length l' -> lexl vlt veq l l' -> vlt (AList a et l) (AList b et l')
| vlt_stype a b et et' n n' l l' : et < et' -> vlt (ASet a et n l) (ASet b et' n' l')
| vlt_sdecl a b et n n' l l' : declared n l < declared n' l' -> vlt (ASet a et n l) (ASet b et n' l')
| vlt_slen a b et n n' l l' : declared n l = declared n' l' -> (length l < length l')%nat ->
    vlt (ASet a et n l) (ASet b et n' l')
| vlt_selem a b et n n' l l' : length l = length l' -> lexl vlt veq l l' ->
    vlt (ASet a et n l) (ASet b et n' l').

(** How deep a value is nested. *)
Fixpoint depth (v : any) : nat :=
  match v with
  | AList _ _ l => S (fold_right (fun w d => Nat.max (depth w) d) 0%nat l)
  | ASet _ _ _ l => S (fold_right (fun w d => Nat.max (depth w) d) 0%nat l)
  | _ => 0%nat
  end.

(** ** Proofs *)
Section Lval.
Variable h : Z -> any.
Variable P : Z -> any -> Prop.
Hypothesis Hs : forall p v, native p v -> P p v.
Hypothesis Hl : forall a et l, (0 < a -> h a = AList a et l) -> Forall (lval h et) l -> Forall (P et) l ->
  P LIST (AList a et l).
Hypothesis Ht : forall a et n l, (0 < a -> h a = ASet a et n l) -> Forall (lval h et) l -> Forall (P et) l ->
  P SET (ASet a et n l).
Fixpoint lval_ind' p v (H : lval h p v) : P p v :=
  match H with
  | lv_scalar _ p v N => Hs p v N
  | lv_list _ a et l Ha Fa => Hl a et l Ha Fa
      ((fix go l (Fa : Forall (lval h et) l) : Forall (P et) l :=
          match Fa with
          | Forall_nil _ => Forall_nil _
          | Forall_cons _ Hv Fa' => Forall_cons _ (lval_ind' et _ Hv) (go _ Fa')
          end) l Fa)
  | lv_set _ a et n l Ha Fa => Ht a et n l Ha Fa
      ((fix go l (Fa : Forall (lval h et) l) : Forall (P et) l :=
          match Fa with
          | Forall_nil _ => Forall_nil _
          | Forall_cons _ Hv Fa' => Forall_cons _ (lval_ind' et _ Hv) (go _ Fa')
          end) l Fa)
  end.
End Lval.

Lemma native_list : forall p a et l, ~ native p (AList a et l).
Proof. intros p a et l H. inversion H. Qed.
Lemma native_set : forall p a et n l, ~ native p (ASet a et n l).
Proof. intros p a et n l H. inversion H. Qed.
Lemma native_LIST : forall v, ~ native LIST v.
Proof. intros v H. inversion H; subst. match goal with X : In _ _ |- _ => cbn in X; intuition discriminate end. Qed.
Lemma native_SET : forall v, ~ native SET v.
Proof. intros v H. inversion H; subst. match goal with X : In _ _ |- _ => cbn in X; intuition discriminate end. Qed.
Lemma native_type : forall p q v, native p v -> native q v -> forall w, native p w -> native q w.
Proof.
  intros p q v Hp Hq w Hw. inversion Hp; subst; inversion Hq; subst; auto.
  inversion Hw; subst; try (match goal with X : In _ [STRING; UTF8; UTF16] |- _ =>
    solve [cbn in X; intuition discriminate] end); try (constructor; auto).
  all: match goal with X : In _ [STRING; UTF8; UTF16] |- _ => exfalso; cbn in X; intuition discriminate end.
Qed.

(** The laws of one value against all others of a domain. *)
Definition laws (D : any -> Prop) (i : any) : Prop := forall j k, D j -> D k ->
  ~ vlt i i /\ (vlt i j -> vlt j k -> vlt i k) /\ (vlt i j \/ veq i j \/ vlt j i) /\
  (vlt i j -> ~ veq i j) /\ veq i i /\ (veq i j -> veq j i) /\ (veq i j -> veq j k -> veq i k) /\
  (veq i j -> vlt j k -> vlt i k) /\ (vlt i j -> veq j k -> vlt i k).

Lemma lex_laws : forall D l, Forall D l -> Forall (laws D) l ->
  forall l' l'', Forall D l' -> Forall D l'' -> length l = length l' -> length l = length l'' ->
  ~ lexl vlt veq l l /\ (lexl vlt veq l l' -> lexl vlt veq l' l'' -> lexl vlt veq l l'') /\
  (lexl vlt veq l l' \/ Forall2 veq l l' \/ lexl vlt veq l' l) /\
  (lexl vlt veq l l' -> ~ Forall2 veq l l') /\ Forall2 veq l l /\
  (Forall2 veq l l' -> Forall2 veq l' l) /\
  (Forall2 veq l l' -> Forall2 veq l' l'' -> Forall2 veq l l'') /\
  (Forall2 veq l l' -> lexl vlt veq l' l'' -> lexl vlt veq l l'') /\
  (lexl vlt veq l l' -> Forall2 veq l' l'' -> lexl vlt veq l l'').
Proof.
  intros D. induction l as [|x l IH]; intros Dl Ll l' l'' D1 D2 E1 E2.
  - destruct l'; [|discriminate]. destruct l''; [|discriminate].
    assert (~ lexl vlt veq [] []) as N by (intros H; inversion H).
    repeat split; auto; try (intros; tauto); try (intros; constructor).
  - destruct l' as [|y l']; [discriminate|]. destruct l'' as [|z l'']; [discriminate|].
    injection E1 as E1. injection E2 as E2.
    inversion Dl as [|? ? Dx Dl']; subst. inversion Ll as [|? ? Lx Ll']; subst.
    inversion D1 as [|? ? Dy D1']; subst. inversion D2 as [|? ? Dz D2']; subst.
    destruct (IH Dl' Ll' l' l'' D1' D2' E1 E2) as (A1 & A2 & A3 & A4 & A5 & A6 & A7 & A8 & A9).
    destruct (Lx y z Dy Dz) as (B1 & B2 & B3 & B4 & B5 & B6 & B7 & B8 & B9).
    repeat split.
    + intros H. inversion H; subst; auto.
    + intros H1 H2. inversion H1; subst; inversion H2; subst.
      * apply lexl_hd; auto.
      * apply lexl_hd; auto.
      * apply lexl_hd; auto.
      * apply lexl_tl; auto.
    + destruct B3 as [B|[B|B]]; [left; apply lexl_hd; auto| |right; right; apply lexl_hd; auto].
      destruct A3 as [A|[A|A]]; [left; apply lexl_tl; auto|right; left; auto|].
      right; right. apply lexl_tl; auto.
    + intros H1 H2. inversion H2; subst. inversion H1; subst; [eapply B4; eauto|eapply A4; eauto].
    + constructor; auto.
    + intros H. inversion H; subst. constructor; auto.
    + intros H1 H2. inversion H1; subst. inversion H2; subst. constructor; auto.
    + intros H1 H2. inversion H1; subst. inversion H2; subst; [apply lexl_hd; auto|apply lexl_tl; auto].
    + intros H1 H2. inversion H2; subst. inversion H1; subst; [apply lexl_hd; auto|apply lexl_tl; auto].
Qed.

Lemma Forall2_len : forall A B (R : A -> B -> Prop) l l', Forall2 R l l' -> length l = length l'.
Proof. induction 1; cbn; auto. Qed.

Lemma vlt_list_iff : forall a b et et' l l', vlt (AList a et l) (AList b et' l') <->
  et < et' \/ et = et' /\ ((length l < length l')%nat \/ length l = length l' /\ lexl vlt veq l l').
Proof.
  intros. split.
  - intros H. inversion H; subst; auto. destruct (native_list _ _ _ _ H0).
  - intros [H|[-> [H|[H1 H2]]]]; [apply vlt_ltype|apply vlt_llen|apply vlt_lelem]; auto.
Qed.
Lemma veq_list_iff : forall a b et et' l l', veq (AList a et l) (AList b et' l') <->
  et = et' /\ length l = length l' /\ Forall2 veq l l'.
Proof.
  intros. split.
  - intros H. inversion H; subst; [destruct (native_list _ _ _ _ H0)|].
    repeat split; auto. eapply Forall2_len; eauto.
  - intros (-> & _ & H). apply veq_list; auto.
Qed.
Lemma vlt_set_iff : forall a b et et' n n' l l', vlt (ASet a et n l) (ASet b et' n' l') <->
  et < et' \/ et = et' /\ (declared n l < declared n' l' \/ declared n l = declared n' l' /\
    ((length l < length l')%nat \/ length l = length l' /\ lexl vlt veq l l')).
Proof.
  intros. split.
  - intros H. inversion H; subst; auto 10; [destruct (native_set _ _ _ _ _ H0)|].
    right. split; [reflexivity|]. right. split; [|auto].
    match goal with X : lexl _ _ _ _ |- _ => inversion X; subst end; cbn [declared]; lia.
  - intros [H|[-> [H|[H0 [H|[H1 H2]]]]]]; [apply vlt_stype|apply vlt_sdecl|apply vlt_slen|apply vlt_selem]; auto.
Qed.
Lemma veq_set_iff : forall a b et et' n n' l l', veq (ASet a et n l) (ASet b et' n' l') <->
  et = et' /\ declared n l = declared n' l' /\ length l = length l' /\ Forall2 veq l l'.
Proof.
  intros. split.
  - intros H. inversion H; subst; [destruct (native_set _ _ _ _ _ H0)|].
    assert (length l = length l') by (eapply Forall2_len; eauto). repeat split; auto.
    destruct l, l'; try discriminate; cbn [declared length] in *; [auto|lia].
  - intros (-> & D & E & H). apply veq_set; auto. intros ->. destruct l'; [exact D|discriminate].
Qed.

Lemma veq_native : forall p i j, native p i -> native p j -> (veq i j <-> scalar_eq i j).
Proof.
  intros p i j Hi Hj. split; [|eapply veq_scalar; eauto].
  intros H. inversion H; subst; auto; exfalso; [eapply native_list|eapply native_set]; eauto.
Qed.
Lemma vlt_native : forall p i j, native p i -> native p j -> (vlt i j <-> scalar_lt i j).
Proof.
  intros p i j Hi Hj. split; [|eapply vlt_scalar; eauto].
  intros H. inversion H; subst; auto; exfalso; first [solve [eapply native_list; eauto]|solve [eapply native_set; eauto]].
Qed.

Lemma lval_native : forall h p v w, native p v -> lval h p w -> native p w.
Proof.
  intros h p v w Hv Hw. inversion Hw; subst; auto; exfalso; [eapply native_LIST|eapply native_SET]; eauto.
Qed.

Ltac use3 L3 := destruct L3 as (X1 & X2 & X3 & X4); [congruence|congruence|congruence|congruence|eauto].
Lemma lval_laws : forall h p i, lval h p i -> laws (lval h p) i.
Proof.
  intros h. apply (lval_ind' h (fun p i => laws (lval h p) i)).
  - intros p i Hi j k Hj Hk.
    pose proof (lval_native _ _ _ _ Hi Hj) as Nj. pose proof (lval_native _ _ _ _ Hi Hk) as Nk.
    rewrite (vlt_native p i i), (vlt_native p i j), (vlt_native p j k), (vlt_native p i k),
      (vlt_native p j i), (veq_native p i i), (veq_native p i j), (veq_native p j k),
      (veq_native p i k), (veq_native p j i) by auto.
    apply (scalar_order p); auto.
  - intros a et l Ha Dl Ll j k Hj Hk.
    inversion Hj as [? ? N|b et1 l1 Hb D1|]; subst; [destruct (native_LIST _ N)|].
    inversion Hk as [? ? N|c et2 l2 Hc D2|]; subst; [destruct (native_LIST _ N)|].
    rewrite !vlt_list_iff, !veq_list_iff.
    destruct (lex_laws _ l Dl Ll l l Dl Dl eq_refl eq_refl) as (A1 & _ & _ & _ & A5 & _).
    assert (L2 : et = et1 -> length l = length l1 ->
      (lexl vlt veq l l1 \/ Forall2 veq l l1 \/ lexl vlt veq l1 l) /\
      (lexl vlt veq l l1 -> ~ Forall2 veq l l1) /\ (Forall2 veq l l1 -> Forall2 veq l1 l)).
    { intros <- E. destruct (lex_laws _ l Dl Ll l1 l1 D1 D1 E E) as (_ & _ & B3 & B4 & _ & B6 & _). auto. }
    assert (L3 : et = et1 -> et = et2 -> length l = length l1 -> length l = length l2 ->
      (lexl vlt veq l l1 -> lexl vlt veq l1 l2 -> lexl vlt veq l l2) /\
      (Forall2 veq l l1 -> Forall2 veq l1 l2 -> Forall2 veq l l2) /\
      (Forall2 veq l l1 -> lexl vlt veq l1 l2 -> lexl vlt veq l l2) /\
      (lexl vlt veq l l1 -> Forall2 veq l1 l2 -> lexl vlt veq l l2)).
    { intros <- <- E E2. destruct (lex_laws _ l Dl Ll l1 l2 D1 D2 E E2) as (_ & B2 & _ & _ & _ & _ & B7 & B8 & B9). auto. }
    repeat split; try lia.
    + intros [H|[_ [H|[_ H]]]]; [lia|lia|auto].
    + intros [H|[-> [H|[H H']]]] [G|[-> [G|[G G']]]]; try (left; lia); try (right; split; [reflexivity|left; lia]).
      right. split; [reflexivity|]. right. split; [congruence|]. use3 L3.
    + destruct (Z.lt_trichotomy et et1) as [H|[H|H]]; [left; auto| |right; right; auto].
      destruct (Nat.lt_trichotomy (length l) (length l1)) as [G|[G|G]]; [left; auto| |right; right; auto].
      destruct (L2 H G) as ([X|[X|X]] & _); [left; auto|right; left; auto|right; right; auto].
    + intros [H|[E [H|[H H']]]] (G1 & G2 & G3); [lia|lia|]. apply (proj1 (proj2 (L2 G1 G2))); auto.
    + auto.
    + destruct H as (G1 & G2 & G3). apply L2; auto.
    + destruct H as (G1 & G2 & G3), H0 as (K1 & K2 & K3). use3 L3.
    + intros (<- & G2 & G3) [H|[<- [H|[H H']]]]; [left; auto|right; split; [auto|left; lia]|].
      right. split; [auto|]. right. split; [congruence|]. use3 L3.
    + intros [H|[<- [H|[H H']]]] (<- & G2 & G3); [left; auto|right; split; [auto|left; lia]|].
      right. split; [auto|]. right. split; [congruence|]. use3 L3.
  - intros a et n l Ha Dl Ll j k Hj Hk.
    inversion Hj as [? ? N| |b et1 n1 l1 Hb D1]; subst; [destruct (native_SET _ N)|].
    inversion Hk as [? ? N| |c et2 n2 l2 Hc D2]; subst; [destruct (native_SET _ N)|].
    rewrite !vlt_set_iff, !veq_set_iff.
    destruct (lex_laws _ l Dl Ll l l Dl Dl eq_refl eq_refl) as (A1 & _ & _ & _ & A5 & _).
    assert (L2 : et = et1 -> length l = length l1 ->
      (lexl vlt veq l l1 \/ Forall2 veq l l1 \/ lexl vlt veq l1 l) /\
      (lexl vlt veq l l1 -> ~ Forall2 veq l l1) /\ (Forall2 veq l l1 -> Forall2 veq l1 l)).
    { intros <- E. destruct (lex_laws _ l Dl Ll l1 l1 D1 D1 E E) as (_ & _ & B3 & B4 & _ & B6 & _). auto. }
    assert (L3 : et = et1 -> et = et2 -> length l = length l1 -> length l = length l2 ->
      (lexl vlt veq l l1 -> lexl vlt veq l1 l2 -> lexl vlt veq l l2) /\
      (Forall2 veq l l1 -> Forall2 veq l1 l2 -> Forall2 veq l l2) /\
      (Forall2 veq l l1 -> lexl vlt veq l1 l2 -> lexl vlt veq l l2) /\
      (lexl vlt veq l l1 -> Forall2 veq l1 l2 -> lexl vlt veq l l2)).
    { intros <- <- E E2. destruct (lex_laws _ l Dl Ll l1 l2 D1 D2 E E2) as (_ & B2 & _ & _ & _ & _ & B7 & B8 & B9). auto. }
    set (d := declared n l). set (d1 := declared n1 l1). set (d2 := declared n2 l2).
    clearbody d d1 d2. repeat split; try lia.
    + intros [H|[_ [H|[_ [H|[_ H]]]]]]; [lia|lia|lia|auto].
    + intros [H|[-> [H|[-> [H|[H H']]]]]] [G|[-> [G|[-> [G|[G G']]]]]];
        try (left; lia); try (right; split; [reflexivity|left; lia]);
        try (right; split; [reflexivity|right; split; [reflexivity|left; lia]]).
      right. split; [reflexivity|]. right. split; [reflexivity|]. right. split; [congruence|]. use3 L3.
    + destruct (Z.lt_trichotomy et et1) as [H|[H|H]]; [left; auto 10| |right; right; auto 10].
      destruct (Z.lt_trichotomy d d1) as [K|[K|K]]; [left; auto 10| |right; right; auto 10].
      destruct (Nat.lt_trichotomy (length l) (length l1)) as [G|[G|G]]; [left; auto 10| |right; right; auto 10].
      destruct (L2 H G) as ([X|[X|X]] & _); [left; auto 10|right; left; auto 10|right; right; auto 10].
    + intros [H|[E [H|[E1 [H|[H H']]]]]] (G1 & G2 & G3 & G4); [lia|lia|lia|]. apply (proj1 (proj2 (L2 G1 G3))); auto.
    + auto.
    + destruct H as (G1 & G2 & G3 & G4). apply L2; auto.
    + destruct H as (G1 & G2 & G3 & G4), H0 as (K1 & K2 & K3 & K4). use3 L3.
    + intros (<- & <- & G2 & G3) [H|[<- [H|[<- [H|[H H']]]]]]; [left; auto|right; split; [auto|left; lia]| |];
      right; split; auto; right; split; auto; [left; lia|].
      right. split; [congruence|]. use3 L3.
    + intros [H|[<- [H|[<- [H|[H H']]]]]] (<- & <- & G2 & G3); [left; auto|right; split; [auto|left; lia]| |];
      right; split; auto; right; split; auto; [left; lia|].
      right. split; [congruence|]. use3 L3.
Qed.

(** ** The comparison decides the order *)
Definition decides (r : outcome (Z * bool)) (i j : any) : Prop :=
  exists c, r = Ok (c, true) /\ (c = -1 /\ vlt i j \/ c = 0 /\ veq i j \/ c = 1 /\ vlt j i).

Lemma decides_of : forall r i j (P Q R : Prop), (vlt i j <-> P) -> (veq i j <-> Q) -> (vlt j i <-> R) ->
  (exists c, r = Ok (c, true) /\ (c = -1 /\ P \/ c = 0 /\ Q \/ c = 1 /\ R)) -> decides r i j.
Proof. intros r i j P Q R H1 H2 H3 (c & E & H). exists c. rewrite H1, H2, H3. auto. Qed.

Lemma cmp_loop_decides : forall cmp D l, Forall D l -> Forall (laws D) l ->
  forall l', Forall D l' -> length l = length l' ->
  (forall v w, In v l -> In w l' -> decides (cmp v w) v w) ->
  exists c, cmp_loop cmp l l' = Ok (c, true) /\
    (c = -1 /\ lexl vlt veq l l' \/ c = 0 /\ Forall2 veq l l' \/ c = 1 /\ lexl vlt veq l' l).
Proof.
  intros cmp D. induction l as [|v l IH]; intros Dl Ll [|w l'] D1 E Hc; try discriminate.
  - exists 0. split; [reflexivity|]. auto.
  - injection E as E. inversion Dl; subst. inversion Ll as [|? ? Lv Ll']; subst. inversion D1; subst.
    cbn [cmp_loop]. destruct (Hc v w (in_eq _ _) (in_eq _ _)) as (c & -> & C). cbn [obind].
    destruct C as [[-> C]|[[-> C]|[-> C]]]; cbn.
    + exists (-1). split; [reflexivity|]. left. split; [reflexivity|]. apply lexl_hd; auto.
    + destruct (IH) with (l' := l') as (c & -> & C'); auto.
      { intros. apply Hc; right; auto. }
      exists c. split; [reflexivity|].
      assert (veq w v) as C2 by (destruct (Lv w w) as (_ & _ & _ & _ & _ & X & _); auto).
      destruct C' as [[-> C']|[[-> C']|[-> C']]]; [left|right; left|right; right]; (split; [reflexivity|]).
      * apply lexl_tl; auto.
      * constructor; auto.
      * apply lexl_tl; auto.
    + exists 1. split; [reflexivity|]. right; right. split; [reflexivity|]. apply lexl_hd; auto.
Qed.

Lemma depth_in : forall v l, In v l -> (depth v <= fold_right (fun w d => Nat.max (depth w) d) 0 l)%nat.
Proof. induction l as [|w l IH]; intros []; cbn [fold_right]; [subst; lia|]. specialize (IH H). lia. Qed.

Lemma set_Len_declared : forall n l, set_Len n l = declared n l.
Proof. intros n [|v l]; reflexivity. Qed.

Theorem Compare_lval : forall x h f p i j, lval h p i -> lval h p j -> (depth i < f)%nat ->
  decides (Compare x f p i j) i j.
Proof.
  intros x h. induction f as [|f IH]; intros p i j Hi Hj Hf; [lia|].
  destruct Hi as [p i Ni|a et l Ha Dl|a et n l Ha Dl].
  - pose proof (lval_native _ _ _ _ Ni Hj) as Nj.
    destruct (Compare_scalar_spec x f p i j Ni Nj) as (c & E & C). exists c. split; [exact E|].
    rewrite (vlt_native p i j), (vlt_native p j i), (veq_native p i j) by auto. exact C.
  - inversion Hj as [? ? N|b et1 l1 Hb D1|]; subst; [destruct (native_LIST _ N)|].
    assert (Ll : Forall (laws (lval h et)) l).
    { eapply Forall_impl; [|exact Dl]. apply lval_laws. }
    cbn [Compare]. change (quick_eq LIST (AList a et l) (AList b et1 l1)) with (Ok (same_obj a b)). cbn [obind].
    destruct (same_obj a b) eqn:Nab.
    { unfold same_obj in Nab. assert (b = a) as -> by lia. assert (0 < a) as Pa by lia. specialize (Ha Pa). specialize (Hb Pa). assert (AList a et l = AList a et1 l1) as E by congruence. injection E as <- <-.
      exists 0. split; [reflexivity|]. right; left. split; [reflexivity|]. apply veq_list_iff.
      destruct (lex_laws _ l Dl Ll l l Dl Dl eq_refl eq_refl) as (_ & _ & _ & _ & A5 & _). auto. }
    cbn [is_nil]. change (CoerceData x LIST (AList a et l)) with (Ok (AList a et l, true)).
    change (CoerceData x LIST (AList b et1 l1)) with (Ok (AList b et1 l1, true)). cbn [obind andb negb].
    change (quick_eq LIST (AList a et l) (AList b et1 l1)) with (Ok (same_obj a b)). cbn [obind].
    rewrite Nab. cbn [is_nil].
    unfold compare_coerced. change (LIST =? STRUCT) with false. change (LIST =? MAP) with false.
    change (LIST =? LIST) with true. cbn iota.
    eapply decides_of; [apply vlt_list_iff|apply veq_list_iff|apply vlt_list_iff|].
    destruct (Z.eqb_spec et et1) as [<-|Ne]; cbn [negb].
    + destruct (Nat.eqb_spec (length l) (length l1)) as [E|E]; cbn [negb].
      * destruct (cmp_loop_decides (Compare x f et) (lval h et) l Dl Ll l1 D1 E) as (c & -> & C).
        { intros v w Hv Hw. rewrite Forall_forall in Dl, D1. apply IH; auto.
          pose proof (depth_in _ _ Hv). cbn [depth] in Hf. lia. }
        exists c. split; [reflexivity|].
        destruct C as [[-> C]|[[-> C]|[-> C]]]; [left|right; left|right; right]; split; auto 10.
      * unfold CompareInt. destruct (Z.ltb_spec (Z.of_nat (length l1)) (Z.of_nat (length l))).
        { exists 1. split; [reflexivity|]. right; right. split; [reflexivity|]. right. split; [auto|]. left. lia. }
        replace (Z.of_nat (length l) <? Z.of_nat (length l1)) with true by lia.
        exists (-1). split; [reflexivity|]. left. split; [reflexivity|]. right. split; [auto|]. left. lia.
    + unfold CompareInt. destruct (Z.ltb_spec et1 et).
      { exists 1. split; [reflexivity|]. right; right. auto. }
      replace (et <? et1) with true by lia.
      exists (-1). split; [reflexivity|]. left. split; [reflexivity|]. left. lia.
  - inversion Hj as [? ? N| |b et1 n1 l1 Hb D1]; subst; [destruct (native_SET _ N)|].
    assert (Ll : Forall (laws (lval h et)) l).
    { eapply Forall_impl; [|exact Dl]. apply lval_laws. }
    cbn [Compare]. change (quick_eq SET (ASet a et n l) (ASet b et1 n1 l1)) with (Ok (same_obj a b)). cbn [obind].
    destruct (same_obj a b) eqn:Nab.
    { unfold same_obj in Nab. assert (b = a) as -> by lia. assert (0 < a) as Pa by lia. specialize (Ha Pa). specialize (Hb Pa). assert (ASet a et n l = ASet a et1 n1 l1) as E by congruence. injection E as <- <- <-.
      exists 0. split; [reflexivity|]. right; left. split; [reflexivity|]. apply veq_set_iff.
      destruct (lex_laws _ l Dl Ll l l Dl Dl eq_refl eq_refl) as (_ & _ & _ & _ & A5 & _). auto. }
    cbn [is_nil]. change (CoerceData x SET (ASet a et n l)) with (Ok (ASet a et n l, true)).
    change (CoerceData x SET (ASet b et1 n1 l1)) with (Ok (ASet b et1 n1 l1, true)). cbn [obind andb negb].
    change (quick_eq SET (ASet a et n l) (ASet b et1 n1 l1)) with (Ok (same_obj a b)). cbn [obind].
    rewrite Nab. cbn [is_nil].
    unfold compare_coerced. change (SET =? STRUCT) with false. change (SET =? MAP) with false.
    change (SET =? LIST) with false. change (SET =? SET) with true. cbn iota.
    rewrite !set_Len_declared. eapply decides_of; [apply vlt_set_iff|apply veq_set_iff|apply vlt_set_iff|].
    destruct (Z.eqb_spec et et1) as [<-|Ne]; cbn [negb].
    + set (d := declared n l). set (d1 := declared n1 l1).
      destruct (Z.eqb_spec d d1) as [E0|E0]; cbn [negb].
      * unfold CompareValueArrays, CompareInt.
        destruct (Z.ltb_spec (Z.of_nat (length l1)) (Z.of_nat (length l))).
        { exists 1. split; [reflexivity|]. right; right. split; [reflexivity|]. right. split; [auto|]. right. split; [auto|]. left. lia. }
        destruct (Z.ltb_spec (Z.of_nat (length l)) (Z.of_nat (length l1))).
        { exists (-1). split; [reflexivity|]. left. split; [reflexivity|]. right. split; [auto|]. right. split; [auto|]. left. lia. }
        assert (E : length l = length l1) by lia. cbn [Z.eqb negb].
        destruct (cmp_loop_decides (Compare x f et) (lval h et) l Dl Ll l1 D1 E) as (c & -> & C).
        { intros v w Hv Hw. rewrite Forall_forall in Dl, D1. apply IH; auto.
          pose proof (depth_in _ _ Hv). cbn [depth] in Hf. lia. }
        exists c. split; [reflexivity|].
        destruct C as [[-> C]|[[-> C]|[-> C]]]; [left|right; left|right; right]; split; auto 12.
      * unfold CompareInt. destruct (Z.ltb_spec d1 d).
        { exists 1. split; [reflexivity|]. right; right. split; [reflexivity|]. right. split; [auto|]. left. lia. }
        replace (d <? d1) with true by lia.
        exists (-1). split; [reflexivity|]. left. split; [reflexivity|]. right. split; [auto|]. left. lia.
    + unfold CompareInt. destruct (Z.ltb_spec et1 et).
      { exists 1. split; [reflexivity|]. right; right. auto. }
      replace (et <? et1) with true by lia.
      exists (-1). split; [reflexivity|]. left. split; [reflexivity|]. left. lia.
Qed.
