(** Truncated compact encodings: exactly which cuts are reported. *)
From Coq Require Import ZArith List Bool Lia.
From Coq Require Import ZifyBool ZifyNat.
From Verif Require Import Base Errors Transport Proto Arith TransportProofs Values Codec
  Binary Compact Skip CompactSpec CompactArith BinaryProofs SkipProofs CompactRead CompactStruct CompactExact.
Import ListNotations.
Open Scope Z_scope.

(** ** Specification *)

(** How many bytes at the end of the encoding of a value belong to the body of a string. *)
Fixpoint string_tail (v : tval) : nat :=
  match v with
  | VStr s => length s
  | VList _ l | VSet _ l => last (map string_tail l) O
  | VMap _ _ l => last (map (fun kv => string_tail (snd kv)) l) O
  | _ => O
  end.
(** How many bytes can be missing at the end without an error: none if a field is false, which
    is an error by itself (C18). *)
Definition silent (v : tval) : nat := if no_false_field v then string_tail v else O.

(** ** Proofs *)
Definition cutv {A} (c : cstate) (op : hop cr A) (bs : bytes) (t : nat) : Prop :=
  forall r q, benign r -> content r ++ q = bs -> q <> [] ->
  ((t < length q)%nat -> exists e s', op (r, c) = Ok (inr e, s')) /\
  ((length q <= t)%nat -> exists a r' c', op (r, c) = Ok (inl a, (r', c')) /\ benign r' /\
     content r' = [] /\ boolValueIsNotNull c' = false).
Definition dead {A} (c : cstate) (op : hop cr A) : Prop :=
  forall r, benign r -> content r = [] -> exists e s', op (r, c) = Ok (inr e, s').

Lemma dead_bind : forall A B c (m : hop cr A) (k : A -> hop cr B), dead c m -> dead c (hbind m k).
Proof.
  intros A B c m k H r Bn X. destruct (H r Bn X) as (e & s' & R). unfold hbind. rewrite R. cbn. eauto.
Qed.
Lemma dead_crt : forall A c (m : rop cr A) bs, crt c m bs -> bs <> [] -> dead c (hlift m).
Proof.
  intros A c m bs H N r Bn X. destruct (H r bs Bn) as (a & e & s' & R); [rewrite X; reflexivity|exact N|].
  unfold hlift. rewrite R. cbn. eauto.
Qed.
Lemma cutv_crt : forall A c (m : rop cr A) bs, crt c m bs -> cutv c (hlift m) bs O.
Proof.
  intros A c m bs H r q Bn X N. split; [intros _|destruct q; [congruence|cbn; lia]].
  destruct (H r q Bn X N) as (a & e & s' & R). unfold hlift. rewrite R. cbn. eauto.
Qed.
Lemma cutv_nil : forall A c (m : hop cr A) t, cutv c m [] t.
Proof. intros A c m t r q Bn X N. apply app_eq_nil in X. tauto. Qed.

Lemma cutv_bind : forall A B c (m : hop cr A) (k : A -> hop cr B) bs1 bs2 a Q t1 t2,
  cutv c m bs1 t1 -> tri c m bs1 a Q -> (forall c1, Q c1 -> cutv c1 (k a) bs2 t2) ->
  (t2 <= length bs2)%nat -> (t1 = O \/ forall a' c1, boolValueIsNotNull c1 = false -> dead c1 (k a')) ->
  cutv c (hbind m k) (bs1 ++ bs2) t2.
Proof.
  intros A B c m k bs1 bs2 a Q t1 t2 H1 T H2 L Dd r q Bn X N.
  destruct (prefix_app_split _ _ _ _ X N) as [(q' & P & N')|(x & P & P2)].
  - assert (Lq : length q = (length q' + length bs2)%nat).
    { rewrite <- P, <- app_assoc in X. apply app_inv_head in X. rewrite X, app_length. reflexivity. }
    assert (0 < length q')%nat by (destruct q'; [congruence|cbn; lia]).
    split; [intros _|lia]. destruct (H1 r q' Bn P N') as [E1 E2]. unfold hbind.
    destruct (Nat.lt_ge_cases t1 (length q')) as [C|C].
    + destruct (E1 C) as (e & s' & R). rewrite R. cbn. eauto.
    + destruct (E2 C) as (a' & r' & c' & R & B' & X' & N0). rewrite R. cbn.
      destruct Dd as [Dd|Dd]; [lia|]. apply (Dd a' c' N0 r' B' X').
  - destruct (T r x Bn P) as (r1 & c1 & R & B1 & Q1 & X1). unfold hbind. rewrite R. cbn.
    apply (H2 c1 Q1 r1 q B1); [rewrite X1; exact P2|exact N].
Qed.
Lemma cutv_bad : forall A B c (m : hop cr A) (k : A -> hop cr B) bs1 bs2,
  cutv c m bs1 O -> fails c m bs1 -> cutv c (hbind m k) (bs1 ++ bs2) O.
Proof.
  intros A B c m k bs1 bs2 H F r q Bn X N.
  assert (0 < length q)%nat by (destruct q; [congruence|cbn; lia]). split; [intros _|lia].
  unfold hbind. destruct (prefix_app_split _ _ _ _ X N) as [(q' & P & N')|(x & P & P2)].
  - destruct (H r q' Bn P N') as [E1 _]. destruct E1 as (e & s' & R); [destruct q'; [congruence|cbn; lia]|].
    rewrite R. cbn. eauto.
  - destruct (F r x Bn P) as (s' & R). rewrite R. cbn. eauto.
Qed.
Lemma cutv_pure : forall A B c (m : hop cr A) (k : A -> hop cr B) (g : A -> B) bs t,
  cutv c m bs t -> (forall a r c1, k a (r, c1) = Ok (inl (g a), (r, c1))) -> cutv c (hbind m k) bs t.
Proof.
  intros A B c m k g bs t H K r q Bn X N. destruct (H r q Bn X N) as [E1 E2]. unfold hbind. split.
  - intros C. destruct (E1 C) as (e & s' & R). rewrite R. cbn. eauto.
  - intros C. destruct (E2 C) as (a & r' & c' & R & R2). rewrite R. cbn. rewrite K. eauto 8.
Qed.

Definition idle (c : cstate) : Prop := boolValueIsNotNull c = false.
Lemma idle_at : forall c, idle c -> at_st c (hd 0 (lastField c), lastFieldId c).
Proof. intros c H. repeat split. exact H. Qed.

Lemma cutv_repeat : forall A B (m : hop cr B) (en : A -> bytes) (g : A -> Z * Z -> B * (Z * Z))
  (ok : A -> bool) (tl : A -> nat) l,
  (forall x c s, In x l -> ok x = true -> at_st c s ->
     tri c m (en x) (fst (g x s)) (st_ok c (snd (g x s)))) ->
  (forall x c, In x l -> ok x = false -> boolValueIsNotNull c = false -> fails c m (en x)) ->
  (forall x c, In x l -> idle c -> cutv c m (en x) (if ok x then tl x else O)) ->
  (forall x c, In x l -> idle c -> dead c m) ->
  (forall x, In x l -> (tl x <= length (en x))%nat) ->
  forall c, idle c -> cutv c (hrepeat (length l) m) (concat (map en l)) (if forallb ok l then last (map tl l) O else O).
Proof.
  induction l as [|x l IH]; intros H1 H2 H3 H4 H5 c I.
  - apply cutv_nil.
  - cbn [length hrepeat map concat]. specialize (IH (fun y c s Hy => H1 y c s (or_intror Hy)) (fun y c Hy => H2 y c (or_intror Hy))
      (fun y c Hy => H3 y c (or_intror Hy)) (fun y c Hy => H4 y c (or_intror Hy)) (fun y Hy => H5 y (or_intror Hy))).
    pose proof (H3 x c (or_introl eq_refl) I) as Hx. cbn [forallb].
    destruct (ok x) eqn:Ok; cbn [andb].
    + destruct l as [|y l'].
      * cbn [forallb map concat last length hrepeat]. rewrite app_nil_r.
        apply cutv_pure with (g := fun b => [b]); [exact Hx|]. reflexivity.
      * eapply cutv_bind; [exact Hx|apply (H1 x c _ (or_introl eq_refl) Ok (idle_at c I))| | |].
        -- intros c1 S1. replace (last (tl x :: map tl (y :: l')) 0%nat) with (last (map tl (y :: l')) 0%nat) by reflexivity.
           eapply cutv_pure; [apply IH; apply S1|]. intros. reflexivity.
        -- destruct (forallb ok (y :: l')); [|lia]. clear -H5.
           assert (G : forall l, (forall z, In z l -> (tl z <= length (en z))%nat) ->
             (last (map tl l) 0 <= length (concat (map en l)))%nat).
           { induction l as [|z l IHl]; intros H; cbn [map concat]; [cbn; lia|]. rewrite app_length.
             destruct l as [|w l]; [cbn; specialize (H z (or_introl eq_refl)); lia|].
             change (last (tl z :: map tl (w :: l)) 0%nat) with (last (map tl (w :: l)) 0%nat).
             specialize (IHl (fun a Ha => H a (or_intror Ha))). lia. }
           change (last (tl x :: map tl (y :: l')) 0%nat) with (last (map tl (y :: l')) 0%nat).
           apply G. intros z Hz. apply H5. right; auto.
        -- right. intros a c1 I1. cbn [length hrepeat]. apply dead_bind, dead_bind, (H4 y); [right; left; auto|exact I1].
    + apply cutv_bad; [exact Hx|]. apply H2; auto. left; auto.
Qed.

Lemma tail_le : forall v, (string_tail v <= length (sc_val v))%nat.
Proof.
  assert (G : forall A (tl : A -> nat) (en : A -> bytes) l, (forall z, In z l -> (tl z <= length (en z))%nat) ->
             (last (map tl l) 0 <= length (concat (map en l)))%nat).
  { intros A tl en. induction l as [|z l IHl]; intros H; cbn [map concat]; [cbn; lia|]. rewrite app_length.
    destruct l as [|w l]; [cbn; specialize (H z (or_introl eq_refl)); lia|].
    change (last (tl z :: map tl (w :: l)) 0%nat) with (last (map tl (w :: l)) 0%nat).
    specialize (IHl (fun a Ha => H a (or_intror Ha))). lia. }
  induction v using tval_ind'; cbn [string_tail sc_val]; try lia.
  - unfold sc_string. rewrite app_length. apply Nat.le_add_l.
  - rewrite Forall_forall in H. rewrite app_length. pose proof (G _ string_tail sc_val l H) as X. etransitivity; [exact X|apply Nat.le_add_l].
  - rewrite Forall_forall in H. rewrite app_length. pose proof (G _ string_tail sc_val l H) as X. etransitivity; [exact X|apply Nat.le_add_l].
  - rewrite Forall_forall in H. rewrite app_length.
    pose proof (G _ (fun kv => string_tail (snd kv)) (fun kv => sc_val (fst kv) ++ sc_val (snd kv)) l) as X.
    assert (forall z, In z l -> (string_tail (snd z) <= length (sc_val (fst z) ++ sc_val (snd z)))%nat).
    { intros z Hz. rewrite app_length. destruct (H z Hz) as [_ X2]. etransitivity; [exact X2|apply Nat.le_add_l]. }
    specialize (X H0). etransitivity; [exact X|apply Nat.le_add_l].
Qed.
Lemma silent_le : forall v, (silent v <= length (sc_val v))%nat.
Proof. intros v. unfold silent. pose proof (tail_le v). destruct (no_false_field v); lia. Qed.

Lemma sc_var_ne : forall n, sc_var n <> [].
Proof. intros n. unfold sc_var. cbn [uvar]. destruct (n <? 128); discriminate. Qed.
Lemma sc_field_ne : forall last t id, sc_field last t id <> [].
Proof. intros. unfold sc_field. destruct (short last id); discriminate. Qed.
Lemma sc_list_ne : forall t n, sc_list t n <> [].
Proof. intros. unfold sc_list. destruct (n <=? 14); discriminate. Qed.
Lemma sc_map_ne : forall k v n, sc_map k v n <> [].
Proof.
  intros. unfold sc_map. destruct (n =? 0); [discriminate|]. intros E. apply app_eq_nil in E as [_ E]. discriminate.
Qed.

Lemma dead_fields : forall f c, dead c (read_fields compactR (S f)).
Proof.
  intros f c. rewrite read_fields_S. apply dead_bind. eapply dead_crt; [apply crt_stop|discriminate].
Qed.
Lemma dead_val : forall v f c, (need v <= f)%nat -> idle c -> dead c (read_val compactR f (vtype v)).
Proof.
  intros v f c Hf I. destruct f as [|f]; [destruct v; cbn in Hf; lia|].
  assert (LE8 : le 8 0 <> []) by discriminate.
  destruct v; cbn [vtype]; try (apply dead_bind; first
    [ eapply dead_crt; [apply (crt_bool c true I)|discriminate]
    | eapply dead_crt; [apply (crt_byte c 0)|discriminate]
    | eapply dead_crt; [apply (crt_i16 c 0)|apply sc_var_ne]
    | eapply dead_crt; [apply (crt_i32 c 0)|apply sc_var_ne]
    | eapply dead_crt; [apply (crt_i64 c 0)|apply sc_var_ne]
    | eapply dead_crt; [apply (crt_double c 0)|exact LE8]
    | eapply dead_crt; [apply (crt_string_len c 0); lia|apply sc_var_ne]
    | eapply dead_crt; [apply (crt_list c BOOL 0); [unfold wire_type; cbn; tauto|lia]|discriminate]
    | eapply dead_crt; [apply (crt_map c BOOL BOOL 0); lia|discriminate] ]).
  assert (Hf2 : exists f', f = S f').
  { destruct f; [|eauto]. cbn in Hf. destruct fs; cbn in Hf; lia. }
  destruct Hf2 as [f' ->]. intros r B X.
  change (exists e s', (_ <-- hlift cReadStructBegin ;;
      fs <-- read_fields compactR (S f') ;;
      _ <-- hdo cReadStructEnd ;; hret (VStruct fs)) (r, c) = Ok (inr e, s')).
  destruct (dead_bind _ _ (set_last c (lastFieldId c :: lastField c) 0) (read_fields compactR (S f'))
    (fun fs => _ <-- hdo cReadStructEnd ;; hret (VStruct fs)) (dead_fields f' _) r B X) as (e & s' & R).
  exists e, s'. exact R.
Qed.

(** A string. *)
Lemma cutv_string : forall c s, idle c -> Z.of_nat (length s) < 2 ^ 31 -> cutv c (hlift cReadString) (sc_string s) (length s).
Proof.
  intros c s I H r q B X N. unfold sc_string in X.
  destruct (prefix_app_split _ _ _ _ X N) as [(q' & P & N')|(x & P & P2)].
  - assert (Lq : length q = (length q' + length s)%nat).
    { rewrite <- P, <- app_assoc in X. apply app_inv_head in X. rewrite X, app_length. reflexivity. }
    assert (0 < length q')%nat by (destruct q'; [congruence|cbn; lia]).
    split; [intros _|lia]. destruct (crt_string_len c (Z.of_nat (length s)) ltac:(lia) r q' B P N') as (a & e & s' & R).
    unfold hlift. rewrite R. cbn. eauto.
  - assert (Lq : length s = (length x + length q)%nat) by (rewrite <- P2, app_length; reflexivity).
    split; [lia|intros _].
    unfold hlift, cReadString, cReadBinary.
    destruct (crd_varint32 c _ (len_u64 s H) r _ B P) as (r' & -> & B' & X'). cbn [obind].
    rewrite wraps32_len by lia.
    assert (0 < length q)%nat by (destruct q; [congruence|cbn; lia]).
    replace (Z.of_nat (length s) =? 0) with false by lia.
    replace (Z.of_nat (length s) <? 0) with false by lia. rewrite Nat2Z.id.
    destruct (read_all_short r' (length s) B') as (r2 & R2 & B2 & X2); [rewrite X'; lia|].
    rewrite R2. cbn. eexists _, _, _. split; [reflexivity|]. auto.
Qed.

Lemma cutv_fields : forall fs,
  (forall x, In x fs -> in_s 16 (fst x) /\ wf (snd x) /\
     (forall f c, (need (snd x) <= f)%nat -> idle c ->
        cutv c (read_val compactR f (vtype (snd x))) (sc_val (snd x)) (silent (snd x)))) ->
  forall last c f, idle c ->
  (fold_right (fun x n => S (Nat.max (need (snd x)) n)) 1%nat fs <= f)%nat ->
  cutv c (read_fields compactR f) (sc_fields last fs) O.
Proof.
  induction fs as [|[id v] fs IH]; intros H last c f N Hf;
    (destruct f as [|f]; [cbn in Hf; lia|]); rewrite read_fields_S; cbn [sc_fields fst].
  - rewrite <- (app_nil_r sc_stop). eapply cutv_bind with (t1 := O).
    + apply cutv_crt, crt_stop.
    + apply tri_crd, crd_stop.
    + intros c1 _. apply cutv_nil.
    + lia.
    + auto.
  - destruct (H (id, v) (or_introl eq_refl)) as (I & W & G). cbn [fst snd] in *.
    cbn [fold_right snd] in Hf. assert (Hn : (need v <= f)%nat) by lia.
    assert (Hf2 : exists f', f = S f'). { destruct f; [destruct v; cbn in Hn; lia|eauto]. }
    set (id' := id_seen last (lastFieldId c) id).
    assert (Rest : forall c1 w, idle c1 ->
       cutv c1 (_ <-- hdo (rFieldEnd compactR) ;; fs0 <-- read_fields compactR f ;;
              hret ((id', w) :: fs0)) (sc_fields id fs) O).
    { intros c1 w N1. change (sc_fields id fs) with ([] ++ sc_fields id fs).
      eapply cutv_bind with (t1 := O); [apply cutv_nil|apply tri_nop| |lia|auto]. intros c2 <-.
      eapply cutv_pure; [apply IH; [intros x Hx; apply H; right; exact Hx|exact N1|lia]|]. intros. reflexivity. }
    destruct (vtype v =? BOOL) eqn:EB.
    + destruct v; try discriminate EB. unfold sc_fieldval. cbn [fst snd]. destruct b.
      * change (sc_bool true) with (sc_type BOOL). eapply cutv_bind with (t1 := O).
        -- apply cutv_crt, crt_field. unfold sc_type; cbn; lia.
        -- apply tri_crd, crd_field_any; [assumption|unfold wire_type; cbn; tauto].
        -- intros c1 <-. cbn [rFieldEnd compactR]. change (BOOL =? STOP) with false. cbn iota beta.
           change (sc_fields id fs) with ([] ++ sc_fields id fs).
           destruct f as [|f']; [cbn in Hn; lia|].
           change (read_val compactR (S f') BOOL) with (v <-- hlift cReadBool ;; hret (VBool v)).
           eapply cutv_bind with (t1 := O); [apply cutv_nil| | |lia|auto].
           { eapply tri_bind0; [apply tri_bool_true; reflexivity|]. intros c2 <-. apply tri_ret. }
           intros c2 <-. apply Rest. reflexivity.
        -- lia.
        -- auto.
      * change (sc_bool false) with 2. apply cutv_bad; [apply cutv_crt, crt_field; lia|apply fails_header; exact I].
    + assert (FV : sc_fieldval last (id, v) = sc_field last (sc_type (vtype v)) id ++ sc_val v).
      { unfold sc_fieldval. cbn [fst snd]. destruct v; try reflexivity. discriminate EB. }
      rewrite FV, <- app_assoc.
      eapply cutv_bind with (t1 := O); [| | |lia|auto].
      { apply cutv_crt, crt_field. pose proof (sc_type_rng _ (vtype_wire v)). lia. }
      { apply tri_crd, crd_field_any; [assumption|apply vtype_wire]. }
      rewrite EB. fold id'. intros c1 <-. cbn beta iota.
      replace (vtype v =? STOP) with false by (symmetry; apply Z.eqb_neq, wire_not_stop).
      set (c0 := set_last c (lastField c) id').
      assert (N0 : idle c0) by exact N.
      pose proof (G f c0 Hn N0) as Gc. unfold silent in Gc.
      destruct (no_false_field v) eqn:E.
      * eapply cutv_bind; [exact Gc| | |lia|].
        -- apply (seen_val v W E f c0 _ Hn (idle_at c0 N0)).
        -- intros c1 A1. apply Rest, A1.
        -- right. intros a' c1 I1. destruct Hf2 as [f' ->]. intros r B X.
           destruct (dead_bind _ _ c1 (read_fields compactR (S f')) (fun fs0 => hret ((id', a') :: fs0)) (dead_fields f' c1) r B X)
             as (e & s' & R). exists e, s'. exact R.
      * apply cutv_bad; [exact Gc|]. apply false_val; assumption.
Qed.

Theorem cut_val : forall v, wf v -> forall f c, (need v <= f)%nat -> idle c ->
  cutv c (read_val compactR f (vtype v)) (sc_val v) (silent v).
Proof.
  induction v using tval_ind'; intros Hwf f c Hf N;
    (destruct f as [|f]; [cbn in Hf; lia|]).
  Ltac ccase h L := apply (cutv_pure _ _ _ _ _ h); [apply cutv_crt, L|reflexivity].
  - change (read_val compactR (S f) (vtype (VBool b))) with (v <-- hlift cReadBool ;; hret (VBool v)). ccase VBool (crt_bool c b N).
  - change (read_val compactR (S f) (vtype (VByte z))) with (v <-- hlift cReadByte ;; hret (VByte v)). ccase VByte (crt_byte c z).
  - change (read_val compactR (S f) (vtype (VI16 z))) with (v <-- hlift cReadI16 ;; hret (VI16 v)). ccase VI16 (crt_i16 c z).
  - change (read_val compactR (S f) (vtype (VI32 z))) with (v <-- hlift cReadI32 ;; hret (VI32 v)). ccase VI32 (crt_i32 c z).
  - change (read_val compactR (S f) (vtype (VI64 z))) with (v <-- hlift cReadI64 ;; hret (VI64 v)). ccase VI64 (crt_i64 c z).
  - change (read_val compactR (S f) (vtype (VDouble z))) with (v <-- hlift cReadDouble ;; hret (VDouble v)). ccase VDouble (crt_double c z).
  - change (read_val compactR (S f) (vtype (VStr s))) with (v <-- hlift cReadString ;; hret (VStr v)).
    destruct Hwf as [_ L]. apply cutv_pure with (g := VStr); [apply cutv_string; assumption|reflexivity].
  - unfold silent. cbn [wf need no_false_field string_tail] in *. destruct Hwf as (T & L & A). rewrite all_in in A.
    rewrite Forall_forall in H.
    change (read_val compactR (S f) (vtype (VList et l))) with
     ('(et, n) <-- hlift cReadListBegin ;;
      l <-- hrepeat (Z.to_nat n) (read_val compactR f et) ;;
      _ <-- hdo nop ;; hret (VList et l)).
    cbn [sc_val].
    assert (El : forall x, In x l -> (need x <= f)%nat).
    { intros x Hx. pose proof (max_list_in' _ need l x Hx). lia. }
    assert (C1 : cutv c (hrepeat (length l) (read_val compactR f et)) (concat (map sc_val l))
              (if forallb no_false_field l then last (map string_tail l) O else O)).
    { apply cutv_repeat with (g := seen); auto.
      - intros x c0 s0 Hx E N0. destruct (A x Hx) as [Ht Hw]. rewrite <- Ht. apply seen_val; auto.
      - intros x c0 Hx E N0. destruct (A x Hx) as [Ht Hw]. rewrite <- Ht. apply false_val; auto.
      - intros x c0 Hx N0. destruct (A x Hx) as [Ht Hw]. rewrite <- Ht. apply (H x Hx Hw); auto.
      - intros x c0 Hx N0. destruct (A x Hx) as [Ht Hw]. rewrite <- Ht. apply dead_val; auto.
      - intros. apply tail_le. }
    eapply cutv_bind with (t1 := O); [apply cutv_crt, crt_list; [assumption|lia]|apply tri_crd, crd_list; [assumption|lia]| | |auto].
    + intros c1 <-. cbn beta iota. rewrite Nat2Z.id.
      eapply cutv_pure; [exact C1|]. intros. reflexivity.
    + pose proof (silent_le (VList et l)) as S1. destruct (forallb no_false_field l) eqn:E; [|lia].
      clear -A. induction l as [|z l IHl]; cbn [map concat]; [cbn; lia|]. rewrite app_length.
      destruct l as [|w l]; [cbn [map last concat]; etransitivity; [apply tail_le|apply Nat.le_add_r]|].
      change (last (string_tail z :: map string_tail (w :: l)) 0%nat) with (last (map string_tail (w :: l)) 0%nat).
      etransitivity; [apply IHl; intros x Hx; apply A; right; exact Hx|apply Nat.le_add_l].
  - unfold silent. cbn [wf need no_false_field string_tail] in *. destruct Hwf as (T & L & A). rewrite all_in in A.
    rewrite Forall_forall in H.
    change (read_val compactR (S f) (vtype (VSet et l))) with
     ('(et, n) <-- hlift cReadListBegin ;;
      l <-- hrepeat (Z.to_nat n) (read_val compactR f et) ;;
      _ <-- hdo nop ;; hret (VSet et l)).
    cbn [sc_val].
    assert (El : forall x, In x l -> (need x <= f)%nat).
    { intros x Hx. pose proof (max_list_in' _ need l x Hx). lia. }
    assert (C1 : cutv c (hrepeat (length l) (read_val compactR f et)) (concat (map sc_val l))
              (if forallb no_false_field l then last (map string_tail l) O else O)).
    { apply cutv_repeat with (g := seen); auto.
      - intros x c0 s0 Hx E N0. destruct (A x Hx) as [Ht Hw]. rewrite <- Ht. apply seen_val; auto.
      - intros x c0 Hx E N0. destruct (A x Hx) as [Ht Hw]. rewrite <- Ht. apply false_val; auto.
      - intros x c0 Hx N0. destruct (A x Hx) as [Ht Hw]. rewrite <- Ht. apply (H x Hx Hw); auto.
      - intros x c0 Hx N0. destruct (A x Hx) as [Ht Hw]. rewrite <- Ht. apply dead_val; auto.
      - intros. apply tail_le. }
    eapply cutv_bind with (t1 := O); [apply cutv_crt, crt_list; [assumption|lia]|apply tri_crd, crd_list; [assumption|lia]| | |auto].
    + intros c1 <-. cbn beta iota. rewrite Nat2Z.id.
      eapply cutv_pure; [exact C1|]. intros. reflexivity.
    + destruct (forallb no_false_field l) eqn:E; [|lia].
      clear -A. induction l as [|z l IHl]; cbn [map concat]; [cbn; lia|]. rewrite app_length.
      destruct l as [|w l]; [cbn [map last concat]; etransitivity; [apply tail_le|apply Nat.le_add_r]|].
      change (last (string_tail z :: map string_tail (w :: l)) 0%nat) with (last (map string_tail (w :: l)) 0%nat).
      etransitivity; [apply IHl; intros x Hx; apply A; right; exact Hx|apply Nat.le_add_l].
  - unfold silent. cbn [wf need no_false_field string_tail] in *. destruct Hwf as (T1 & T2 & L & A).
    rewrite all_in in A. rewrite Forall_forall in H.
    change (read_val compactR (S f) (vtype (VMap kt vt l))) with
     ('(kt, vt, n) <-- hlift cReadMapBegin ;;
      l <-- hrepeat (Z.to_nat n)
              (k <-- read_val compactR f kt ;; v <-- read_val compactR f vt ;; hret (k, v)) ;;
      _ <-- hdo nop ;; hret (VMap kt vt l)).
    cbn [sc_val].
    assert (El : forall x, In x l -> (need (fst x) <= f)%nat /\ (need (snd x) <= f)%nat).
    { intros x Hx. pose proof (max_list_in' _ (fun kv => Nat.max (need (fst kv)) (need (snd kv))) l x Hx) as M. cbn beta in M. lia. }
    set (en := fun kv : tval * tval => sc_val (fst kv) ++ sc_val (snd kv)).
    set (ok := fun kv : tval * tval => no_false_field (fst kv) && no_false_field (snd kv)).
    set (tl := fun kv : tval * tval => string_tail (snd kv)).
    assert (Lt : forall x, (tl x <= length (en x))%nat).
    { intros x. unfold tl, en. rewrite app_length. etransitivity; [apply tail_le|apply Nat.le_add_l]. }
    assert (C1 : cutv c (hrepeat (length l) (k <-- read_val compactR f kt ;; v <-- read_val compactR f vt ;; hret (k, v)))
              (concat (map en l)) (if forallb ok l then last (map tl l) O else O)).
    { apply cutv_repeat with (g := pair_seen); auto.
      - intros x c0 s0 Hx E N0. destruct (A x Hx) as [[Hkt Hkw] [Hvt Hvw]]. destruct (El x Hx).
        apply andb_true_iff in E. destruct E as [NFk NFv]. rewrite <- Hkt, <- Hvt. unfold pair_seen.
        pose proof (seen_val _ Hkw NFk f c0 s0 ltac:(lia) N0) as Gk.
        destruct (seen (fst x) s0) as [k1 s1]. cbn [fst snd] in Gk.
        eapply tri_bind; [exact Gk|]. intros c2 A2.
        pose proof (seen_val _ Hvw NFv f c2 s1 ltac:(lia) (st_ok_at _ _ _ A2)) as Gv.
        destruct (seen (snd x) s1) as [v2 s2]. cbn [fst snd] in *.
        eapply tri_bind0; [exact Gv|]. intros c3 A3.
        eapply tri_weak; [apply tri_ret|]. intros c4 <-. eapply st_ok_trans; eauto.
      - intros x c0 Hx E N0. destruct (A x Hx) as [[Hkt Hkw] [Hvt Hvw]]. destruct (El x Hx).
        unfold ok in E. rewrite <- Hkt, <- Hvt. destruct (no_false_field (fst x)) eqn:Ek.
        + eapply fails_bind_r; [apply (seen_val _ Hkw Ek f c0 _ ltac:(lia) (idle_at c0 N0))|].
          intros c1 A1. apply fails_bind_0. apply false_val; [exact Hvw|exact E|lia|apply A1].
        + apply fails_bind_l. apply false_val; [exact Hkw|exact Ek|lia|exact N0].
      - intros x c0 Hx N0. destruct (A x Hx) as [[Hkt Hkw] [Hvt Hvw]]. destruct (H x Hx) as [Hk Hv]. destruct (El x Hx).
        unfold ok, tl. rewrite <- Hkt, <- Hvt.
        pose proof (Hk Hkw f c0 ltac:(lia) N0) as Ck. unfold silent in Ck.
        destruct (no_false_field (fst x)) eqn:Ek; cbn [andb].
        + eapply cutv_bind; [exact Ck|apply (seen_val _ Hkw Ek f c0 _ ltac:(lia) (idle_at c0 N0))| | |].
          * intros c1 A1. eapply cutv_pure; [apply (Hv Hvw f c1 ltac:(lia)); apply A1|]. intros. reflexivity.
          * apply silent_le.
          * right. intros a' c1 I1. apply dead_bind, dead_val; [lia|exact I1].
        + apply cutv_bad; [exact Ck|]. apply false_val; [exact Hkw|exact Ek|lia|exact N0].
      - intros x c0 Hx N0. destruct (A x Hx) as [[Hkt Hkw] [Hvt Hvw]]. destruct (El x Hx). rewrite <- Hkt.
        apply dead_bind, dead_val; [lia|exact N0]. }
    eapply cutv_bind with (t1 := O); [apply cutv_crt, crt_map; lia|apply tri_crd, crd_map; [assumption|assumption|lia]| | |auto].
    + intros c1 <-. destruct l as [|kv l']; [apply cutv_nil|].
      set (l := kv :: l') in *. replace (Z.of_nat (length l) =? 0) with false by (subst l; cbn [length]; lia). cbn beta iota.
      rewrite Nat2Z.id. eapply cutv_pure; [exact C1|]. intros. reflexivity.
    + fold ok tl en. destruct (forallb ok l) eqn:E; [|lia].
      clear -Lt. induction l as [|z l IHl]; cbn [map concat]; [cbn; lia|]. rewrite app_length.
      destruct l as [|w l]; [cbn [map last concat]; etransitivity; [apply Lt|apply Nat.le_add_r]|].
      change (last (tl z :: map tl (w :: l)) 0%nat) with (last (map tl (w :: l)) 0%nat).
      etransitivity; [apply IHl|apply Nat.le_add_l].
  - replace (silent (VStruct fs)) with O by (unfold silent; cbn; destruct (forallb _ _); reflexivity).
    cbn [wf need] in *. rewrite all_in in Hwf. rewrite Forall_forall in H.
    change (read_val compactR (S f) (vtype (VStruct fs))) with
     (_ <-- hlift cReadStructBegin ;;
      fs <-- read_fields compactR f ;;
      _ <-- hdo cReadStructEnd ;; hret (VStruct fs)).
    rewrite sc_val_struct. change (sc_fields 0 fs) with ([] ++ sc_fields 0 fs).
    eapply (cutv_bind _ _ _ _ _ [] _ _ (eq (set_last c (lastFieldId c :: lastField c) 0)) O); [apply cutv_nil| | |lia|auto].
    { intros r rest B X. eexists r, _. split; [reflexivity|]. auto. }
    intros c1 <-. intros r q B X Nq.
    assert (Cf : cutv (set_last c (lastFieldId c :: lastField c) 0) (read_fields compactR f) (sc_fields 0 fs) O).
    { apply cutv_fields; [|exact N|lia]. intros x Hx. destruct (Hwf x Hx). split; [assumption|]. split; [assumption|].
      intros. apply H; auto. }
    destruct (Cf r q B X Nq) as [E1 _].
    assert (0 < length q)%nat by (destruct q; [congruence|cbn; lia]). split; [intros _|lia].
    destruct (E1 H0) as (e & s' & R). unfold hbind at 1. rewrite R. cbn. eauto.
Qed.
