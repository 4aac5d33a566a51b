(** C19, C24, C25 in full: what TCompactProtocol reads back for every value it has written. *)
From Coq Require Import ZArith List Bool Lia.
From Coq Require Import ZifyBool ZifyNat.
From Verif Require Import Base Errors Transport Proto Arith TransportProofs Values Codec
  Binary Compact Skip CompactSpec CompactArith BinaryProofs SkipProofs CompactRead CompactStruct
  WfDec CompactExact PropCompact.
Import ListNotations.
Open Scope Z_scope.

(** ** C24 *)
(** Without a false field, every value is read back with the ids of [read_back]. *)
Lemma C24_read_back_aux : forall v, wf v -> no_false_field v = true -> value_reads_as v (read_back v).
Proof.
  intros v W NF. split; [intros; apply C16_aux; assumption|].
  intros f r rest c Hf I B X.
  destruct (seen_val v W NF f c (hd 0 (lastField c), lastFieldId c) Hf) with (r := r) (rest := rest)
    as (r' & c' & R & B' & A & X'); auto; [repeat split; exact I|].
  exists r', c'. unfold read_back. rewrite (proj1 (seen_free v (0, 0) (hd 0 (lastField c), lastFieldId c))).
  split; [exact R|]. split; [exact B'|]. split; [exact X'|apply A].
Qed.
Theorem C24_read_back : forall v,
  wf v -> no_false_field v = true -> value_reads_as v (read_back v).
Proof. exact C24_read_back_aux. Qed.
Print Assumptions C24_read_back.

(** With a false field anywhere, reading fails, always with the same error. *)
Theorem C24_false_field : forall v f r rest c,
  wf v -> no_false_field v = false -> (need v <= f)%nat -> rd_idle c ->
  benign r -> content r = sc_val v ++ rest ->
  exists s', read_val compactR f (vtype v) (r, c) =
    Ok (inr (EProtocol UNKNOWN_PROTOCOL_EXCEPTION), s').
Proof. intros v f r rest c W NF Hf I B X. apply (false_val v W NF f c Hf I r rest B X). Qed.
Print Assumptions C24_false_field.

(** ** Exactly which values survive *)
(** Any bytes can be there to be read. *)
Definition holding (bs : bytes) : rt := match bs with [] => [] | _ => [(bs, None)] end.
Lemma holding_ok : forall bs, benign (holding bs) /\ content (holding bs) = bs ++ [].
Proof.
  intros [|b bs]; (split; [|cbn; rewrite ?app_nil_r; reflexivity]); cbn.
  - constructor.
  - constructor; [split; [discriminate|reflexivity]|constructor].
Qed.
(** A value is read back as one value only. *)
Lemma reads_once : forall v w w', value_reads_as v w -> value_reads_as v w' -> w = w'.
Proof.
  intros v w w' [_ H] [_ H'].
  destruct (holding_ok (sc_val v)) as [B X].
  destruct (H (need v) _ [] cinit (Nat.le_refl _) eq_refl B X) as (r1 & c1 & R1 & _).
  destruct (H' (need v) _ [] cinit (Nat.le_refl _) eq_refl B X) as (r2 & c2 & R2 & _).
  congruence.
Qed.
(** Empty maps come back untyped, whatever the ids. *)
Fixpoint shape (v : tval) : tval :=
  match v with
  | VList t l => VList t (map shape l)
  | VSet t l => VSet t (map shape l)
  | VMap k t l => VMap k t (map (fun kv => (shape (fst kv), shape (snd kv))) l)
  | VStruct fs => VStruct (map (fun f => (0, shape (snd f))) fs)
  | v => v
  end.
Lemma thread_map : forall A B C T (g : A -> T -> B * T) (p : B -> C) (q : A -> C) l,
  (forall x s, In x l -> p (fst (g x s)) = q x) ->
  forall s, map p (fst (thread g l s)) = map q l.
Proof.
  induction l as [|x l IH]; intros H s; [reflexivity|]. cbn [thread].
  pose proof (H x s (or_introl eq_refl)) as Hx. destruct (g x s) as [y s1].
  pose proof (IH (fun x s Hx => H x s (or_intror Hx)) s1) as Hl. destruct (thread g l s1) as [ys s2].
  cbn [fst map] in *. congruence.
Qed.
Lemma seen_shape : forall v s, shape (fst (seen v s)) = shape (untyped_empty v).
Proof.
  induction v using tval_ind'; intros s0; try reflexivity.
  - rewrite Forall_forall in H. rewrite seen_list. cbn [fst shape untyped_empty]. f_equal.
    rewrite map_map. apply thread_map. auto.
  - rewrite Forall_forall in H. rewrite seen_set. cbn [fst shape untyped_empty]. f_equal.
    rewrite map_map. apply thread_map. auto.
  - rewrite Forall_forall in H. destruct l as [|y l]; [reflexivity|].
    rewrite seen_map. cbv zeta.
    change (untyped_empty (VMap kt vt (y :: l))) with
      (VMap kt vt (map (fun kv => (untyped_empty (fst kv), untyped_empty (snd kv))) (y :: l))).
    set (l0 := y :: l) in *. clearbody l0. clear y l. cbn [fst shape]. f_equal.
    rewrite map_map. apply thread_map. intros x s Hx. destruct (H x Hx) as [Hk Hv].
    unfold pair_seen. pose proof (Hk s) as Ek. destruct (seen (fst x) s) as [k s1].
    pose proof (Hv s1) as Ev. destruct (seen (snd x) s1) as [w s2]. cbn [fst snd] in *. congruence.
  - rewrite Forall_forall in H. rewrite seen_struct. cbv zeta. cbn [fst shape untyped_empty]. f_equal.
    rewrite map_map. cbn [snd fst]. apply thread_map. intros x s Hx. unfold field_seen.
    pose proof (H x Hx (fst (snd s), id_seen (fst s) (snd (snd s)) (fst x))) as Ex.
    destruct (seen (snd x) _) as [w s2]. cbn [fst snd] in *. congruence.
Qed.
Lemma shape_typed : forall v, wf v -> shape (untyped_empty v) = shape v -> no_empty_map v = true.
Proof.
  induction v using tval_ind'; intros W H1; try reflexivity;
    cbn [wf untyped_empty shape no_empty_map] in *.
  - destruct W as (_ & _ & A). rewrite all_in in A. rewrite Forall_forall in H.
    injection H1; intros E. rewrite map_map in E. apply forallb_forall. intros x Hx.
    pose proof (ext_in_map E x Hx) as Ex. cbn beta in Ex. apply H; auto. apply A, Hx.
  - destruct W as (_ & _ & A). rewrite all_in in A. rewrite Forall_forall in H.
    injection H1; intros E. rewrite map_map in E. apply forallb_forall. intros x Hx.
    pose proof (ext_in_map E x Hx) as Ex. cbn beta in Ex. apply H; auto. apply A, Hx.
  - destruct W as (T & _ & _ & A). rewrite all_in in A. rewrite Forall_forall in H.
    destruct l as [|y l].
    + cbn [shape] in H1. injection H1; intros _ E1. subst kt. exfalso. unfold wire_type in T.
      cbn in T. unfold STOP, BOOL, BYTE, I16, I32, I64, DOUBLE, STRING,
        LIST, SET, MAP, STRUCT in T. intuition discriminate.
    + cbn [andb]. set (l0 := y :: l) in *. clearbody l0. clear y l.
      injection H1; intros E. rewrite map_map in E. cbn [fst snd] in E.
      apply forallb_forall. intros x Hx.
      pose proof (ext_in_map E x Hx) as Ex. cbn beta in Ex. injection Ex; intros Ev Ek.
      destruct (H x Hx) as [Hk Hv]. destruct (A x Hx) as [[_ Wk] [_ Wv]].
      rewrite Hk, Hv by assumption. reflexivity.
  - rewrite all_in in W. rewrite Forall_forall in H. injection H1; intros E.
    rewrite map_map in E. cbn [fst snd] in E. apply forallb_forall. intros x Hx.
    pose proof (ext_in_map E x Hx) as Ex. cbn beta in Ex. injection Ex; intros Ev.
    apply H; auto. apply W, Hx.
Qed.

(** A value written is read back as it was exactly when it has no false field and no empty map
    and its ids are kept. *)
Theorem C24_exact : forall v, wf v ->
  (value_reads_as v v <->
   no_false_field v = true /\ no_empty_map v = true /\ ids_kept v = true).
Proof.
  intros v W. split.
  - intros V. destruct (no_false_field v) eqn:NF.
    + split; [reflexivity|]. pose proof (reads_once _ _ _ (C24_read_back_aux v W NF) V) as E.
      assert (NE : no_empty_map v = true).
      { apply shape_typed; [exact W|]. rewrite <- E at 2. unfold read_back. symmetry. apply seen_shape. }
      split; [exact NE|]. apply read_back_kept; [exact W|]. rewrite E. symmetry. apply no_empty_same, NE.
    + exfalso. destruct V as [_ V].
      destruct (holding_ok (sc_val v)) as [B X].
      destruct (V (need v) _ [] cinit (Nat.le_refl _) eq_refl B X) as (r1 & c1 & R1 & _).
      destruct (false_val v W NF (need v) cinit (Nat.le_refl _) eq_refl _ _ B X) as (s' & R).
      congruence.
  - intros (NF & NE & K). pose proof (C24_read_back_aux v W NF) as V.
    rewrite (proj2 (read_back_kept v W) K), (no_empty_same v NE) in V. exact V.
Qed.
Print Assumptions C24_exact.
(** Three levels of structs whose ids happen to be kept although none is apart; the same with
    another id in the middle is read back with the last two ids wrong. *)
Definition kept3 : tval :=
  VStruct [(4, VStruct [(4, VStruct [(1, VByte 7)])]); (5, VByte 8); (6, VByte 9)].
Definition lost3 : tval :=
  VStruct [(4, VStruct [(1, VStruct [(1, VByte 7)])]); (5, VByte 8); (6, VByte 9)].
Example C24_exact_ex :
  wf kept3 /\ no_false_field kept3 = true /\ no_empty_map kept3 = true /\ ids_kept kept3 = true /\
  ids_apart kept3 = false /\
  wf lost3 /\ no_false_field lost3 = true /\ ids_kept lost3 = false /\
  read_back lost3 =
    VStruct [(4, VStruct [(1, VStruct [(1, VByte 7)])]); (2, VByte 8); (3, VByte 9)] /\
  wf (VList STRUCT [VStruct [(1, VBool true)]; VStruct [(1, VBool false)]]) /\
  no_false_field (VList STRUCT [VStruct [(1, VBool true)]; VStruct [(1, VBool false)]]) = false.
Proof. concrete. Qed.

(** ** C19 *)
(** The ids of a value without false fields and empty maps come back exactly when they are kept
    in the sense of [ids_kept]. *)
Theorem C19_exact : forall v,
  wf v -> no_false_field v = true -> no_empty_map v = true ->
  (value_reads_as v v <-> ids_kept v = true).
Proof.
  intros v W NF NE. split.
  - intros V. apply C24_exact in V; [|exact W]. apply V.
  - intros K. apply C24_exact; auto.
Qed.
Print Assumptions C19_exact.
Example C19_exact_ex :
  wf kept3 /\ no_false_field kept3 = true /\ no_empty_map kept3 = true /\ ids_kept kept3 = true /\
  no_empty_map lost3 = true /\ ids_kept lost3 = false.
Proof. concrete. Qed.

(** ** C25 *)
(** Skipping any value without false fields stops exactly at its end; the id believed to be the
    previous one is then the one a reading leaves: [left_by] when the ids of the value are kept. *)
Theorem C25_skip_exact : forall M v f d r rest c,
  wf v -> no_false_field v = true -> (need v <= f)%nat -> rd_idle c ->
  benign r -> content r = sc_val v ++ rest ->
  exists r' c', skip compactR M f (vtype v) d (r, c) = Ok (None, (r', c')) /\ benign r' /\
    content r' = rest /\ rd_idle c' /\
    lastFieldId c' = snd (snd (seen v (hd 0 (lastField c), lastFieldId c))) /\
    (ids_kept v = true -> lastFieldId c' = left_by (lastFieldId c) v).
Proof.
  intros M v f d r rest c W NF Hf I B X.
  destruct (seen_val v W NF f c (hd 0 (lastField c), lastFieldId c) Hf) with (r := r) (rest := rest)
    as (r' & c' & R & B' & A & X'); auto; [repeat split; exact I|].
  destruct A as (A1 & _ & _ & A4). exists r', c'.
  split; [eapply (proj1 (skip_of_read compactR M f)), R|].
  split; [exact B'|]. split; [exact X'|]. split; [exact A1|]. split; [exact A4|].
  intros K. rewrite A4, (kept_seen v W K). reflexivity.
Qed.
Print Assumptions C25_skip_exact.
Example C25_exact_ex :
  wf lost3 /\ no_false_field lost3 = true /\ (need lost3 <= 20)%nat /\ rd_idle cinit /\
  exists s', skip compactR 64 20 STRUCT 64 ([(sc_val lost3 ++ [9; 9], None)], set_last cinit [0] 7) =
    Ok (None, s') /\ content (fst s') = [9; 9] /\ lastFieldId (snd s') = 1 /\
    snd (snd (seen lost3 (0, 7))) = 1.
Proof.
  split; [concrete|]. split; [reflexivity|]. split; [cbn; lia|]. split; [reflexivity|].
  eexists. split; [vm_compute; reflexivity|]. split; [vm_compute; reflexivity|].
  split; vm_compute; reflexivity.
Qed.

(** A struct with a false field is never skipped to its end: the skip reports success just
    behind the header of the first such field. *)
Lemma skip_short : forall M pre id post d,
  (forall x, In x pre -> in_s 16 (fst x) /\ wf (snd x) /\ is_false (snd x) = false /\
             no_false_field (snd x) = true) -> in_s 16 id ->
  forall last f c r rest, boolValueIsNotNull c = false ->
  (fold_right (fun x n => S (Nat.max (need (snd x)) n)) 1%nat pre <= f)%nat ->
  benign r -> content r = sc_fields last (pre ++ (id, VBool false) :: post) ++ rest ->
  exists r' c', skip_fields compactR M f d (r, c) = Ok (r', c') /\ benign r' /\
    content r' = sc_fields id post ++ rest /\ boolValueIsNotNull c' = false /\
    (length (lastField c) <= length (lastField c'))%nat.
Proof.
  intros M pre id post d. induction pre as [|[i v] pre IH]; intros H I last f c r rest N Hf B X;
    (destruct f as [|f]; [cbn in Hf; lia|]); rewrite skip_fields_S; cbn [app sc_fields fst] in X.
  - unfold sc_fieldval in X. cbn [fst snd] in X. change (sc_bool false) with 2 in X.
    rewrite <- app_assoc in X. cbn [rFieldBegin compactR]. unfold cReadFieldBegin, sc_field in *.
    destruct (short last id) eqn:Sh.
    + unfold short in Sh. destruct (crd_byte c _ r _ B X) as (r1 & R1 & B1 & X1). rewrite R1. cbn [obind].
      rewrite land_15, land_240. replace (((id - last) * 16 + 2) mod 16) with 2 by
        (rewrite Z.add_comm, Z.mod_add by lia; reflexivity).
      replace (((id - last) * 16 + 2) / 16) with (id - last) by
        (rewrite Z.add_comm, Z.div_add by lia; reflexivity).
      rewrite (Z.mod_small (id - last)) by lia.
      change (2 =? STOP) with false. cbn iota.
      rewrite (wraps_id 16 (id - last)) by (unfold in_s; lia).
      replace (id - last =? 0) with false by lia. cbn [obind].
      change (getTType 2) with (STOP, Some (EOther 0)). cbn. exists r1, c. auto.
    + change (2 :: sc_int id) with ([2] ++ sc_int id) in X. rewrite <- app_assoc in X.
      destruct (crd_byte c _ r _ B X) as (r1 & R1 & B1 & X1). rewrite R1. cbn [obind].
      change (Z.land 2 15 =? STOP) with false.
      change (wraps 16 (Z.shiftr (Z.land 2 240) 4) =? 0) with true. cbn iota.
      destruct (crd_i16 c id I r1 _ B1 X1) as (r2 & R2 & B2 & X2). rewrite R2. cbn [obind].
      change (getTType (Z.land 2 15)) with (STOP, Some (EOther 0)). cbn. exists r2, c. auto.
  - destruct (H (i, v) (or_introl eq_refl)) as (Ii & W & NI & NF). cbn [fst snd] in *.
    cbn [fold_right snd] in Hf. assert (Hn : (need v <= f)%nat) by lia.
    assert (Next : forall r1 c1, benign r1 -> boolValueIsNotNull c1 = false ->
      (length (lastField c) <= length (lastField c1))%nat ->
      content r1 = sc_fields i (pre ++ (id, VBool false) :: post) ++ rest ->
      exists r' c', skip_fields compactR M f d (r1, c1) = Ok (r', c') /\ benign r' /\
        content r' = sc_fields id post ++ rest /\ boolValueIsNotNull c' = false /\
        (length (lastField c) <= length (lastField c'))%nat).
    { intros r1 c1 B1 N1 L1 X1.
      destruct (IH (fun x Hx => H x (or_intror Hx)) I i f c1 r1 rest N1 ltac:(lia) B1 X1)
        as (r' & c' & R & B' & X' & N' & L'). exists r', c'. repeat split; auto. lia. }
    rewrite <- app_assoc in X. cbn [rFieldBegin rFieldEnd compactR].
    destruct (vtype v =? BOOL) eqn:EB.
    + destruct v; try discriminate EB. destruct b; [|discriminate NI].
      unfold sc_fieldval in X. cbn [fst snd] in X. change (sc_bool true) with (sc_type BOOL) in X.
      destruct (crd_field_any c BOOL i last Ii ltac:(unfold wire_type; cbn; tauto) r _ B X)
        as (r1 & R1 & B1 & X1). rewrite R1. cbn [obind]. change (BOOL =? BOOL) with true.
      change (BOOL =? STOP) with false. cbn iota.
      destruct f as [|f']; [cbn in Hn; lia|].
      change (skip compactR M (S f') BOOL (d - 1)) with
        (fun s => '(_, e, s1) <- cReadBool s ;; Ok (e, s1)).
      cbn beta. unfold cReadBool. cbn. apply Next; auto.
    + assert (FV : sc_fieldval last (i, v) = sc_field last (sc_type (vtype v)) i ++ sc_val v).
      { unfold sc_fieldval. cbn [fst snd]. destruct v; try reflexivity. discriminate EB. }
      rewrite FV, <- app_assoc in X.
      destruct (crd_field_any c (vtype v) i last Ii (vtype_wire v) r _ B X) as (r1 & R1 & B1 & X1).
      rewrite R1. cbn [obind]. rewrite EB.
      replace (vtype v =? STOP) with false by (symmetry; apply Z.eqb_neq, wire_not_stop).
      set (c1 := set_last c (lastField c) (id_seen last (lastFieldId c) i)).
      destruct (seen_val v W NF f c1 (hd 0 (lastField c1), lastFieldId c1) Hn)
        with (r := r1) (rest := sc_fields i (pre ++ (id, VBool false) :: post) ++ rest)
        as (r2 & c2 & R2 & B2 & (A1 & A2 & _) & X2); [repeat split; exact N|exact B1|exact X1|].
      rewrite (proj1 (skip_of_read compactR M f) _ (d - 1) _ _ _ R2). cbn [obind]. unfold nop. cbn [obind].
      apply Next; auto.
Qed.
Theorem C25_false_field : forall M pre id post f d r rest c,
  wf (VStruct pre) -> no_false_field (VStruct pre) = true -> in_s 16 id ->
  (need (VStruct (pre ++ (id, VBool false) :: post)) <= f)%nat -> rd_idle c -> benign r ->
  content r = sc_val (VStruct (pre ++ (id, VBool false) :: post)) ++ rest ->
  exists r' c', skip compactR M f STRUCT d (r, c) = Ok (None, (r', c')) /\
    content r' = sc_fields id post ++ rest /\ content r' <> rest.
Proof.
  intros M pre id post f d r rest c W NF I Hf N B X. rewrite sc_val_struct in X.
  destruct f as [|f]; [cbn in Hf; lia|]. rewrite skip_struct. cbn [rStructBegin rStructEnd compactR].
  cbn [wf no_false_field need] in *. rewrite all_in in W. rewrite forallb_forall in NF.
  change (cReadStructBegin (r, c)) with
    (Ok (([] : bytes), None, (r, set_last c (lastFieldId c :: lastField c) 0)) : outcome (bytes * option err * cr)).
  cbn [obind].
  destruct (skip_short M pre id post d) with (last := 0) (f := f) (r := r) (rest := rest)
    (c := set_last c (lastFieldId c :: lastField c) 0) as (r' & c' & R & B' & X' & N' & L'); auto.
  - intros x Hx. destruct (W x Hx). specialize (NF x Hx). apply andb_true_iff in NF.
    destruct NF as [NF1 NF2]. apply negb_true_iff in NF1. auto.
  - assert (Le : (fold_right (fun x n => S (Nat.max (need (snd x)) n)) 1%nat pre <=
      fold_right (fun x n => S (Nat.max (need (snd x)) n)) 1%nat (pre ++ (id, VBool false) :: post))%nat).
    { clear. induction pre as [|x pre IH]; cbn [fold_right app]; [|lia].
      cbn [snd]. lia. }
    lia.
  - rewrite R. cbn [obind]. cbn [lastField set_last length] in L'. unfold cReadStructEnd.
    destruct (lastField c') as [|i stk] eqn:E; [cbn in L'; lia|]. eexists r', _.
    split; [reflexivity|]. split; [exact X'|]. intros Q. rewrite Q in X'.
    apply (f_equal (@length Z)) in X'. rewrite app_length in X'.
    assert (Pos : forall last fs, (0 < length (sc_fields last fs))%nat).
    { intros last fs. revert last. induction fs as [|x fs IH]; intros last; [cbn; lia|].
      cbn [sc_fields]. rewrite app_length. specialize (IH (fst x)). lia. }
    specialize (Pos id post). lia.
Qed.
Print Assumptions C25_false_field.
Example C25_false_ex :
  wf (VStruct [(1, VByte 5); (2, VBool true)]) /\ no_false_field (VStruct [(1, VByte 5); (2, VBool true)]) = true /\
  in_s 16 3 /\ rd_idle cinit /\
  sc_val (VStruct ([(1, VByte 5); (2, VBool true)] ++ (3, VBool false) :: [(4, VByte 6)])) =
    [19; 5; 17; 18; 19; 6; 0] /\
  exists s', skip compactR 64 20 STRUCT 64 ([([19; 5; 17; 18; 19; 6; 0; 9], None)], cinit) =
    Ok (None, s') /\ content (fst s') = [19; 6; 0; 9].
Proof.
  split; [concrete|]. split; [reflexivity|]. split; [concrete|]. split; [reflexivity|].
  split; [reflexivity|]. eexists. split; [vm_compute; reflexivity|vm_compute; reflexivity].
Qed.
