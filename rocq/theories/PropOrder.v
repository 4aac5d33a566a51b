(** Properties of the order of values: C65, C66, and Contains of lists (C38). *)
From Coq Require Import ZArith List Bool Lia.
From Coq Require Import ZifyBool ZifyNat.
From Verif Require Import Base Arith F64 Strconv TField GoVal Compare CompareProofs TList TSet ListOrder
  PropContainers.
Import ListNotations.
Open Scope Z_scope.

(** A heap for the examples: the objects at addresses 1 to 6. *)
Definition heap0 (a : Z) : any :=
  if a =? 1 then AList 1 I32 [AInt32 5; AInt32 7]
  else if a =? 2 then AList 2 I32 [AInt32 5; AInt32 8]
  else if a =? 3 then AList 3 LIST [AList 1 I32 [AInt32 5; AInt32 7]; AList 2 I32 [AInt32 5; AInt32 8]]
  else if a =? 4 then AList 4 LIST [AList 1 I32 [AInt32 5; AInt32 7]; AList 5 I32 [AInt32 5; AInt32 8]]
  else if a =? 5 then AList 5 I32 [AInt32 5; AInt32 8]
  else AList 6 LIST [AList 1 I32 [AInt32 5; AInt32 7]; AList 1 I32 [AInt32 5; AInt32 7]].
Ltac solve_lval := repeat first
  [ apply lv_list; [reflexivity|]
  | apply Forall_cons | apply Forall_nil
  | apply lv_scalar; constructor; unfold in_s; lia ].
Lemma heap0_ok : forall a, In a [3; 4; 6] -> lval heap0 LIST (heap0 a).
Proof.
  intros a H. cbn [In] in H. repeat destruct H as [<-|H]; try contradiction; cbn -[Z.ltb]; solve_lval.
Qed.

(** ** C65 *)

(** Compare of two lists or sets (elements: scalars, lists, sets, to any depth) decides the
    specified order: element type, then length, then the first difference. *)
Theorem C65_compare : forall x h f p i j, lval h p i -> lval h p j -> (depth i < f)%nat ->
  exists c, Compare x f p i j = Ok (c, true) /\
    (c = -1 /\ vlt i j \/ c = 0 /\ veq i j \/ c = 1 /\ vlt j i).
Proof. exact Compare_lval. Qed.
Print Assumptions C65_compare.

(** That order is a strict total order up to equality. *)
Theorem C65_total_order : forall h p i j k, lval h p i -> lval h p j -> lval h p k ->
  ~ vlt i i /\ (vlt i j -> vlt j k -> vlt i k) /\ (vlt i j \/ veq i j \/ vlt j i) /\
  (vlt i j -> ~ veq i j) /\ veq i i /\ (veq i j -> veq j i) /\ (veq i j -> veq j k -> veq i k) /\
  (veq i j -> vlt j k -> vlt i k) /\ (vlt i j -> veq j k -> vlt i k).
Proof. intros h p i j k Hi Hj Hk. exact (lval_laws h p i Hi j k Hj Hk). Qed.
Print Assumptions C65_total_order.

(** Two lists at different addresses are equal to Equals exactly if they have the element type
    and, position by position, equal elements. *)
Theorem C65_equals : forall x h f a b et et' l l',
  lval h LIST (AList a et l) -> lval h LIST (AList b et' l') -> (depth (AList a et l) < f)%nat ->
  exists c, Compare x f LIST (AList a et l) (AList b et' l') = Ok (c, true) /\
    (c = 0 <-> et = et' /\ length l = length l' /\
       forall k v w, nth_error l k = Some v -> nth_error l' k = Some w -> veq v w).
Proof.
  intros x h f a b et et' l l' Hi Hj Hf.
  destruct (Compare_lval x h f LIST _ _ Hi Hj Hf) as (c & E & C). exists c. split; [exact E|].
  assert (Q : veq (AList a et l) (AList b et' l') <-> et = et' /\ length l = length l' /\
    forall k v w, nth_error l k = Some v -> nth_error l' k = Some w -> veq v w).
  { rewrite veq_list_iff. split; intros (-> & El & H); repeat split; auto.
    - clear -H. induction H; intros [|k] v w Hv Hw; cbn in *; try discriminate; [congruence|eauto].
    - clear -H El. revert l' El H. induction l as [|v l IH]; intros [|w l'] El H; try discriminate; constructor.
      + apply (H 0%nat); reflexivity.
      + apply IH; [cbn in El; lia|]. intros k. apply (H (S k)). }
  rewrite <- Q. pose proof (lval_laws h LIST _ Hi _ _ Hj Hi) as (_ & _ & _ & L4 & _ & L6 & _).
  pose proof (lval_laws h LIST _ Hj _ _ Hi Hj) as (_ & _ & _ & M4 & _).
  destruct C as [[-> C]|[[-> C]|[-> C]]]; (split; [|]); try discriminate; try lia; auto.
  all: intros V; exfalso; first [exact (L4 C V)|exact (M4 C (L6 V))].
Qed.
Print Assumptions C65_equals.

Example C65_ex :
  lval heap0 LIST (heap0 3) /\ lval heap0 LIST (heap0 4) /\ lval heap0 LIST (heap0 6) /\
  (depth (heap0 3) < 3)%nat /\
  Compare ext0 3 LIST (heap0 3) (heap0 4) = Ok (0, true) /\
  Compare ext0 3 LIST (heap0 3) (heap0 6) = Ok (1, true) /\
  Compare ext0 3 LIST (heap0 6) (heap0 3) = Ok (-1, true).
Proof.
  split; [apply heap0_ok; cbn; auto|]. split; [apply heap0_ok; cbn; auto|].
  split; [apply heap0_ok; cbn; auto|]. split; [vm_compute; lia|]. repeat split; vm_compute; reflexivity.
Qed.

(** ** C66 *)

(** TList.Less gives true for every two positions of a list, whatever is there. *)
Theorem C66_list_less_partial : forall x h f et l i j, Forall (lval h et) l -> inb l i -> inb l j ->
  (forall v, In v l -> (depth v < f)%nat) ->
  tl_Less x f (MkTl et l) i j = Ok true.
Proof.
  intros x h f et l i j Hl Hi Hj Hd. unfold tl_Less. cbn [tl_l tl_et].
  destruct (index_seq l i Hi) as (v & -> & Ev). destruct (index_seq l j Hj) as (w & -> & Ew). cbn [obind].
  assert (In v l /\ In w l) as [Iv Iw].
  { unfold seq in *. destruct (i <? 0), (j <? 0); try discriminate.
    split; eapply nth_error_In; eauto. }
  rewrite Forall_forall in Hl.
  destruct (Compare_lval x h f et v w (Hl _ Iv) (Hl _ Iw) (Hd _ Iv)) as (c & -> & _). reflexivity.
Qed.
Print Assumptions C66_list_less_partial.
(** TType.Less gives true exactly if the second value precedes the first. *)
Theorem C66_type_less_partial : forall x h f p i j, lval h p i -> lval h p j -> (depth i < f)%nat ->
  exists b, TType_Less x f p i j = Ok b /\ (b = true <-> vlt j i).
Proof.
  intros x h f p i j Hi Hj Hd. unfold TType_Less.
  destruct (Compare_lval x h f p i j Hi Hj Hd) as (c & -> & C). cbn [obind andb].
  eexists. split; [reflexivity|].
  pose proof (lval_laws h p _ Hj _ _ Hi Hj) as (L1 & L2 & _ & L4 & _).
  pose proof (lval_laws h p _ Hi _ _ Hj Hi) as (_ & _ & _ & _ & _ & L6 & _).
  destruct C as [[-> C]|[[-> C]|[-> C]]]; cbn; split; try discriminate; auto.
  all: intros V; exfalso; first [exact (L1 (L2 V C))|exact (L4 V (L6 C))].
Qed.
Print Assumptions C66_type_less_partial.
(** Type ids are ordered and compared by their numbers, given as a TType, a byte or one of these integers. *)
Theorem C66_type_ids : forall x p t d, in_u 8 t ->
  In d [ATType t; AByte t; AInt t; AInt32 t; AInt64 t; AUint t; AUint32 t; AUint64 t] ->
  (TType_LessType x p d = true <-> p < t) /\ (TType_Equals x p d = true <-> p = t).
Proof.
  intros x p t d Ht Hd. unfold TType_LessType, TType_Equals.
  assert (TType_Coerce x d = t) as ->.
  { cbn [In] in Hd. repeat (destruct Hd as [<-|Hd]; [cbn [TType_Coerce]; rewrite ?wrapu_id by exact Ht; reflexivity|]). destruct Hd. }
  split; lia.
Qed.
Print Assumptions C66_type_ids.
(** int16, uint16 and strings are all taken for STOP. *)
Theorem C66_type_ids_refuted : exists t, in_u 8 t /\ TType_Equals ext0 t (AInt16 t) = false /\
  TType_Equals ext0 STOP (AInt16 t) = true /\ TType_LessType ext0 3 (AUint16 t) = false /\ 3 < t.
Proof. exists 8. split; [unfold in_u; lia|]. repeat split. Qed.
Print Assumptions C66_type_ids_refuted.
Theorem C66_less_refuted :
  (exists l i j, Forall (native I32) l /\ inb l i /\ inb l j /\
     seq l i = Some (AInt32 2) /\ seq l j = Some (AInt32 1) /\ ~ vlt (AInt32 2) (AInt32 1) /\
     tl_Less ext0 1 (MkTl I32 l) i j = Ok true) /\
  (exists i j, native I32 i /\ native I32 j /\ vlt i j /\ TType_Less ext0 1 I32 i j = Ok false).
Proof.
  assert (N : forall z, in_s 32 z -> native I32 (AInt32 z)) by (intros; constructor; auto).
  assert (N1 : native I32 (AInt32 1)) by (apply N; unfold in_s; lia).
  assert (N2 : native I32 (AInt32 2)) by (apply N; unfold in_s; lia).
  split.
  - exists [AInt32 1; AInt32 2], 1, 0. split; [auto|]. unfold inb. cbn [length].
    split; [lia|]. split; [lia|]. split; [reflexivity|]. split; [reflexivity|].
    split; [|vm_compute; reflexivity]. rewrite (vlt_native I32) by auto. cbn. lia.
  - exists (AInt32 1), (AInt32 2). split; [auto|]. split; [auto|]. split; [|vm_compute; reflexivity].
    apply (vlt_scalar I32); auto. cbn. lia.
Qed.
Print Assumptions C66_less_refuted.
Example C66_ex : Forall (lval heap0 I32) [AInt32 5; AInt32 7] /\ inb [AInt32 5; AInt32 7] 0 /\
  tl_Less ext0 1 (MkTl I32 [AInt32 5; AInt32 7]) 0 1 = Ok true /\
  TType_Less ext0 1 I32 (AInt32 7) (AInt32 5) = Ok true.
Proof.
  split; [solve_lval|]. split; [unfold inb; cbn; lia|]. split; vm_compute; reflexivity.
Qed.

(** ** C38: Contains *)
Lemma same_elem_lval : forall x h f p d v, lval h p d -> lval h p v -> (depth d < f)%nat ->
  exists b, same_elem x f p d v = Ok b /\ (b = true <-> veq d v).
Proof.
  intros x h f p d v Hd Hv Hf.
  destruct (Compare_lval x h f p d v Hd Hv Hf) as (c & E & C).
  pose proof (lval_laws h p _ Hd _ _ Hv Hd) as (_ & _ & _ & L4 & _ & L6 & _).
  pose proof (lval_laws h p _ Hv _ _ Hd Hv) as (_ & _ & _ & M4 & _).
  assert (Q : (true && (c =? 0)) = true <-> veq d v).
  { destruct C as [[-> C]|[[-> C]|[-> C]]]; cbn; split; try discriminate; auto.
    all: intros V; exfalso; first [exact (L4 C V)|exact (M4 C (L6 V))]. }
  destruct Hd as [p d N|a et l Ha Dl|a et n l Ha Dl].
  - pose proof (lval_native _ _ _ _ N Hv) as Nv. rewrite same_elem_native by auto.
    eexists. split; [reflexivity|]. rewrite (veq_native p), <- (key_eq p), str_eq_iff by auto. reflexivity.
  - unfold same_elem. change (LIST =? BINARY) with false. change (IsBaseType LIST || IsEnum LIST) with false.
    cbn iota. rewrite E. cbn [obind]. eauto.
  - unfold same_elem. change (SET =? BINARY) with false. change (IsBaseType SET || IsEnum SET) with false.
    cbn iota. rewrite E. cbn [obind]. eauto.
Qed.
Lemma find_lval : forall (f : any -> outcome bool) (P : any -> Prop) l i,
  (forall v, In v l -> exists b, f v = Ok b /\ (b = true <-> P v)) ->
  exists k, find_idx f l i = Ok k /\
    (k = -1 /\ (forall v, In v l -> ~ P v) \/
     exists a e b, l = a ++ e :: b /\ P e /\ (forall v, In v a -> ~ P v) /\ k = i + Z.of_nat (length a)).
Proof.
  intros f P. induction l as [|v l IH]; intros i H; cbn [find_idx].
  - exists (-1). split; [reflexivity|]. left. split; [reflexivity|]. intros v [].
  - destruct (H v (in_eq _ _)) as (b & -> & B). cbn [obind]. destruct b.
    + exists i. split; [reflexivity|]. right. exists [], v, l. repeat split.
      * apply B; auto.
      * intros w [].
      * cbn. lia.
    + assert (Nv : ~ P v) by (intros X; apply B in X; discriminate).
      destruct (IH (i + 1)) as (k & -> & K); [intros; apply H; right; auto|].
      exists k. split; [reflexivity|]. destruct K as [[-> K]|(a & e & b & -> & Pe & Na & ->)].
      * left. split; [reflexivity|]. intros w [<-|W]; auto.
      * right. exists (v :: a), e, b. repeat split; auto.
        { intros w [<-|W]; auto. }
        { cbn [length]. lia. }
Qed.

(** Contains tells whether the list has an element equal to the given value, for lists of
    scalars, lists and sets; nil is in no such list. *)
Theorem C38_contains : forall x h f et l d, Forall (lval h et) l -> lval h et d -> (depth d < f)%nat ->
  (exists b, tl_Contains x f (MkTl et l) d = Ok b /\ (b = true <-> exists e, In e l /\ veq d e)) /\
  tl_Contains x f (MkTl et l) ANil = Ok false.
Proof.
  intros x h f et l d Hl Hd Hf. rewrite Forall_forall in Hl. unfold tl_Contains, tl_indexOf. cbn [tl_et tl_l].
  assert (Nn : forall p v, lval h p v -> is_nil v = false).
  { intros p v H. destruct H; try reflexivity. eapply native_not_nil; eauto. }
  split.
  - rewrite (Nn _ _ Hd).
    assert (CoerceData x et d = Ok (d, true)) as ->.
    { destruct Hd; [apply coerce_native; auto|reflexivity|reflexivity]. }
    cbn [obind]. rewrite (Nn _ _ Hd). cbn [negb orb].
    destruct (find_lval (same_elem x f et d) (veq d) l 0) as (k & -> & K).
    { intros v Hv. apply (same_elem_lval x h); auto. }
    cbn [obind]. eexists. split; [reflexivity|].
    destruct K as [[-> K]|(a & e & b & -> & Pe & _ & ->)].
    + split; [discriminate|]. intros (e & He & V). destruct (K e He V).
    + split; [|lia]. intros _. exists e. split; [apply in_or_app; right; left; auto|exact Pe].
  - cbn [is_nil].
    destruct (find_lval (fun v => Ok (is_nil v)) (fun _ => False) l 0) as (k & -> & K).
    { intros v Hv. exists (is_nil v). split; [reflexivity|]. rewrite (Nn et v) by auto. split; [discriminate|tauto]. }
    destruct K as [[-> _]|(a & e & b & _ & [] & _)]. reflexivity.
Qed.
Print Assumptions C38_contains.
Example C38_contains_ex :
  Forall (lval heap0 LIST) [heap0 3; heap0 6] /\ lval heap0 LIST (heap0 4) /\ (depth (heap0 4) < 3)%nat /\
  tl_Contains ext0 3 (MkTl LIST [heap0 3; heap0 6]) (heap0 4) = Ok true /\
  tl_Contains ext0 3 (MkTl LIST [heap0 6]) (heap0 4) = Ok false.
Proof.
  split; [apply Forall_cons; [apply heap0_ok; cbn; auto|apply Forall_cons; [apply heap0_ok; cbn; auto|apply Forall_nil]]|]. split; [apply heap0_ok; cbn; auto|].
  split; [vm_compute; lia|]. split; vm_compute; reflexivity.
Qed.
