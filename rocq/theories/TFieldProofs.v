(** Lookups and equality of field containers; coercion facts. *)
From Coq Require Import ZArith List Bool Lia.
From Coq Require Import ZifyBool ZifyNat SpecFloat.
From Verif Require Import Base Arith F64 Strconv TField GoVal Compare CompareProofs.
Import ListNotations.
Open Scope Z_scope.
Ltac Zify.zify_post_hook ::= Z.div_mod_to_equations.

Definition id_step (m : list (Z * tfield)) (f : tfield) := (f_id f, f) :: m.
Definition name_step (m : list (bytes * tfield)) (f : tfield) :=
  match f_name f with [] => m | _ => (f_name f, f) :: m end.

Lemma container_fields : forall a fs, 
  fc_addr (NewTFieldContainer a fs) = a /\ fc_fields (NewTFieldContainer a fs) = fs /\
  fc_id (NewTFieldContainer a fs) = fold_left id_step fs [] /\
  fc_name (NewTFieldContainer a fs) = fold_left name_step fs [].
Proof.
  intros a fs. unfold NewTFieldContainer.
  assert (G : forall l c,
    let r := fold_left (fun c f =>
      MkFc (fc_addr c) (fc_fields c)
           (match f_name f with [] => fc_name c | _ => (f_name f, f) :: fc_name c end)
           ((f_id f, f) :: fc_id c)) l c in
    fc_addr r = fc_addr c /\ fc_fields r = fc_fields c /\
    fc_id r = fold_left id_step l (fc_id c) /\ fc_name r = fold_left name_step l (fc_name c)).
  { induction l as [|f l IH]; intros c; cbn [fold_left]; [repeat split|].
    cbv zeta in IH |- *. match goal with |- context [fold_left _ l ?c0] => specialize (IH c0) end.
    cbn [fc_addr fc_fields fc_id fc_name] in IH. exact IH. }
  exact (G fs (MkFc a fs [] [])).
Qed.

(** The last field with the id / name wins. *)
Fixpoint last_by (P : tfield -> bool) (fs : list tfield) : option tfield :=
  match fs with
  | [] => None
  | f :: fs' => match last_by P fs' with Some g => Some g | None => if P f then Some f else None end
  end.

Lemma id_lookup : forall fs m id, lookup_z (fold_left id_step fs m) id =
  match last_by (fun f => id =? f_id f) fs with Some f => Some f | None => lookup_z m id end.
Proof.
  induction fs as [|f fs IH]; intros m id; cbn [fold_left last_by]; [reflexivity|].
  rewrite IH. destruct (last_by _ fs); [reflexivity|]. cbn [id_step lookup_z].
  destruct (id =? f_id f); reflexivity.
Qed.
Lemma name_lookup : forall fs m n, lookup_s (fold_left name_step fs m) n =
  match last_by (fun f => negb (length (f_name f) =? 0)%nat && str_eq n (f_name f)) fs with
  | Some f => Some f | None => lookup_s m n end.
Proof.
  induction fs as [|f fs IH]; intros m n; cbn [fold_left last_by]; [reflexivity|].
  rewrite IH. destruct (last_by _ fs); [reflexivity|]. unfold name_step.
  destruct (f_name f) eqn:E; cbn [length Nat.eqb negb andb]; [reflexivity|].
  cbn [lookup_s]. destruct (str_eq n (z :: b)); reflexivity.
Qed.

Lemma last_by_unique : forall (P : tfield -> bool) fs f, In f fs -> P f = true ->
  (forall g, In g fs -> P g = true -> g = f) -> last_by P fs = Some f.
Proof.
  intros P. induction fs as [|g fs IH]; intros f Hin Hp Hu; [inversion Hin|].
  cbn [last_by]. destruct (last_by P fs) as [h|] eqn:E.
  - assert (In h fs /\ P h = true) as [H1 H2].
    { clear -E. revert h E. induction fs as [|g fs IH]; intros h E; [discriminate|]. cbn [last_by] in E.
      destruct (last_by P fs) eqn:E'; [injection E as <-; destruct (IH _ eq_refl); split; [right|]; auto|].
      destruct (P g) eqn:G; [|discriminate]. injection E as <-. split; [left|]; auto. }
    f_equal. apply Hu; [right|]; auto.
  - destruct Hin as [->|Hin]; [rewrite Hp; reflexivity|].
    assert (None = Some f) by (apply IH; auto; intros; apply Hu; [right|]; auto).
    congruence.
Qed.
Lemma last_by_none : forall (P : tfield -> bool) fs, (forall g, In g fs -> P g = false) -> last_by P fs = None.
Proof.
  intros P. induction fs as [|g fs IH]; intros H; [reflexivity|]. cbn [last_by].
  rewrite IH by (intros; apply H; right; auto). rewrite H by (left; auto). reflexivity.
Qed.

Lemma nodup_map_inj : forall A B (g : A -> B) l a b, NoDup (map g l) -> In a l -> In b l -> g a = g b -> a = b.
Proof.
  intros A B g. induction l as [|y l IH]; intros a b N Ha Hb E; [inversion Ha|].
  cbn in N. inversion N; subst. destruct Ha as [->|Ha], Hb as [->|Hb]; auto.
  - exfalso. apply H1. rewrite E. apply in_map; auto.
  - exfalso. apply H1. rewrite <- E. apply in_map; auto.
Qed.

Theorem lookups : forall addr fs, NoDup (map f_id fs) -> NoDup (map f_name fs) ->
  let c := NewTFieldContainer addr fs in
  (forall f, In f fs ->
     FieldFromFieldId c (f_id f) = f /\ fc_At c (f_id f) = f /\
     FieldNameFromFieldId c (f_id f) = f_name f /\ fc_Contains c (KInt (f_id f)) = true /\
     fc_Contains c (KStr (f_name f)) = true /\
     (f_name f <> [] -> FieldFromFieldName c (f_name f) = f /\ FieldIdFromFieldName c (f_name f) = f_id f)) /\
  (forall id, ~ In id (map f_id fs) ->
     FieldFromFieldId c id = ANONYMOUS_FIELD /\ fc_At c id = ANONYMOUS_FIELD /\
     FieldNameFromFieldId c id = [] /\ fc_Contains c (KInt id) = false) /\
  (forall n, ~ In n (map f_name fs) ->
     FieldFromFieldName c n = ANONYMOUS_FIELD /\ FieldIdFromFieldName c n = -1 /\
     fc_Contains c (KStr n) = false) /\
  fc_Len c = Z.of_nat (length fs).
Proof.
  intros addr fs Ni Nn c. destruct (container_fields addr fs) as (_ & Ef & Ei & En). fold c in Ef, Ei, En.
  unfold FieldFromFieldId, FieldNameFromFieldId, FieldFromFieldName, FieldIdFromFieldName, fc_At,
    FieldFromFieldId, fc_Contains, fc_Len.
  rewrite Ef, Ei, En.
  assert (Li : forall id, lookup_z (fold_left id_step fs []) id = last_by (fun f => id =? f_id f) fs).
  { intros id. rewrite id_lookup. destruct (last_by _ fs); reflexivity. }
  assert (Ln : forall n, lookup_s (fold_left name_step fs []) n =
     last_by (fun f => negb (length (f_name f) =? 0)%nat && str_eq n (f_name f)) fs).
  { intros n. rewrite name_lookup. destruct (last_by _ fs); reflexivity. }
  split; [|split; [|split; [|reflexivity]]].
  - intros f Hf. rewrite !Li.
    assert (E : last_by (fun g => f_id f =? f_id g) fs = Some f).
    { apply last_by_unique; [auto|lia|]. intros g Hg E. apply (nodup_map_inj _ _ f_id fs); auto. lia. }
    rewrite E. split; [reflexivity|]. split; [reflexivity|]. split; [reflexivity|]. split.
    { apply existsb_exists. exists f. split; [auto|lia]. }
    split. { apply existsb_exists. exists f. split; [auto|apply str_eq_refl]. }
    intros Hne. rewrite !Ln.
    assert (E2 : last_by (fun g => negb (length (f_name g) =? 0)%nat && str_eq (f_name f) (f_name g)) fs = Some f).
    { apply last_by_unique; [auto| |].
      - rewrite str_eq_refl. destruct (f_name f); [congruence|reflexivity].
      - intros g Hg E2. apply andb_prop in E2 as [_ E2]. apply str_eq_iff in E2.
        apply (nodup_map_inj _ _ f_name fs); auto. }
    rewrite E2. auto.
  - intros id Hid. rewrite !Li. rewrite last_by_none.
    + repeat split. apply not_true_is_false. intros C. apply existsb_exists in C as (f & Hf & C).
      apply Hid. replace id with (f_id f) by lia. apply in_map; auto.
    + intros g Hg. apply Z.eqb_neq. intros ->. apply Hid, in_map; auto.
  - intros n Hn. rewrite !Ln. rewrite last_by_none.
    + repeat split. apply not_true_is_false. intros C. apply existsb_exists in C as (f & Hf & C).
      apply str_eq_iff in C. apply Hn. rewrite <- C. apply in_map; auto.
    + intros g Hg. apply andb_false_iff. right. apply not_true_is_false. intros C. apply str_eq_iff in C.
      apply Hn. rewrite C. apply in_map; auto.
Qed.

(** ** Equality *)
Lemma field_compare_0 : forall p d, field_CompareTo p (OField d) = (0, true) <->
  (f_id p = f_id d /\ f_type p = f_type d /\ f_name p = f_name d).
Proof.
  intros p d. unfold field_CompareTo.
  destruct (Z.eqb_spec (f_id p) (f_id d)); cbn [negb].
  - destruct (Z.eqb_spec (f_type p) (f_type d)); cbn [negb].
    + split; intros H.
      * injection H as H. apply CompareString_0 in H. auto.
      * destruct H as (_ & _ & H). f_equal. apply CompareString_0, H.
    + split; [|tauto]. intros H. injection H as H. unfold CompareByte in H. apply (proj1 (CompareInt_0 _ _)) in H. contradiction.
  - split; [|tauto]. intros H. injection H as H. apply (proj1 (CompareInt_0 _ _)) in H. contradiction.
Qed.

Lemma field_equals : forall p d, p <> FNil ->
  (field_Equals p (OField d) = true <-> (f_id p = f_id d /\ f_type p = f_type d)).
Proof.
  intros p d Hp. destruct p as [|n t i]; [congruence|]. cbn [field_Equals f_type f_id].
  rewrite andb_true_iff, !Z.eqb_eq. tauto.
Qed.

Definition ti (f : tfield) := (f_id f, f_type f).

Theorem container_equals : forall p d, (forall f, In f (fc_fields d) -> f <> FNil) ->
  (fc_Equals p (CCont d) = true <->
   (length (fc_fields p) = length (fc_fields d) /\
    incl (map ti (fc_fields p)) (map ti (fc_fields d)))).
Proof.
  intros p d Hd. cbn [fc_Equals]. rewrite andb_true_iff, Z.eqb_eq. unfold fc_Len.
  assert (F : forallb (fun f => fc_Contains d (KField f)) (fc_fields p) = true <->
              incl (map ti (fc_fields p)) (map ti (fc_fields d))).
  { rewrite forallb_forall. split.
    - intros H t Ht. apply in_map_iff in Ht as (f & <- & Hf). specialize (H f Hf).
      cbn [fc_Contains] in H. apply existsb_exists in H as (g & Hg & E).
      apply field_equals in E; [|auto]. apply in_map_iff. exists g. split; [|auto]. unfold ti. destruct E. congruence.
    - intros H f Hf. cbn [fc_Contains]. specialize (H (ti f) (in_map ti _ _ Hf)).
      apply in_map_iff in H as (g & E & Hg). apply existsb_exists. exists g. split; [auto|].
      apply field_equals; [auto|]. unfold ti in E. injection E. auto. }
  rewrite F. split; intros [H1 H2]; split; auto; lia.
Qed.

(** With distinct fields on the left, equality is equality of the sets of (id, type). *)
Theorem container_equals_sym : forall p d,
  (forall f, In f (fc_fields d) -> f <> FNil) -> (forall f, In f (fc_fields p) -> f <> FNil) ->
  NoDup (map ti (fc_fields p)) -> fc_Equals p (CCont d) = true -> fc_Equals d (CCont p) = true.
Proof.
  intros p d Hd Hp N E. apply container_equals in E as [L I]; [|auto].
  apply container_equals; [auto|]. split; [auto|].
  apply NoDup_length_incl; [auto|rewrite !map_length; lia|auto].
Qed.

(** ** Coercion *)
Lemma wraps_id : forall n z, 1 <= n -> in_s n z -> wraps n z = z.
Proof.
  intros n z Hn Hz. unfold in_s in Hz. unfold wraps.
  assert (P : 2 ^ n = 2 * 2 ^ (n - 1)) by (rewrite <- Z.pow_succ_r by lia; f_equal; lia).
  assert (0 < 2 ^ (n - 1)) by (apply Z.pow_pos_nonneg; lia).
  destruct (Z.leb_spec 0 z).
  - rewrite Z.mod_small by lia. replace (z <? 2 ^ (n - 1)) with true by lia. reflexivity.
  - assert (E : z mod 2 ^ n = z + 2 ^ n) by (symmetry; apply Z.mod_unique with (-1); lia).
    rewrite E. replace (z + 2 ^ n <? 2 ^ (n - 1)) with false by lia. lia.
Qed.
Lemma wraps_range : forall n z, 1 <= n -> in_s n (wraps n z).
Proof.
  intros n z Hn. unfold in_s, wraps.
  assert (P : 2 ^ n = 2 * 2 ^ (n - 1)) by (rewrite <- Z.pow_succ_r by lia; f_equal; lia).
  assert (0 < 2 ^ (n - 1)) by (apply Z.pow_pos_nonneg; lia).
  pose proof (Z.mod_pos_bound z (2 ^ n) ltac:(lia)).
  destruct (Z.ltb_spec (z mod 2 ^ n) (2 ^ (n - 1))); lia.
Qed.
