(** What TCompactProtocol makes of the encoding of any value: the ids it reads, and where it
    fails. *)
From Coq Require Import ZArith List Bool Lia.
From Coq Require Import ZifyBool ZifyNat.
From Verif Require Import Base Errors Transport Proto Arith TransportProofs Values Codec
  Binary Compact Skip CompactSpec CompactArith BinaryProofs SkipProofs CompactRead CompactStruct.
Import ListNotations.
Open Scope Z_scope.
Ltac Zify.zify_post_hook ::= Z.div_mod_to_equations.

(** ** Specification *)

(** Going through a list from left to right with a state. *)
Definition thread {A B T : Type} (f : A -> T -> B * T) : list A -> T -> list B * T :=
  fix go l s :=
    match l with
    | [] => ([], s)
    | x :: l' => let '(y, s1) := f x s in let '(ys, s2) := go l' s1 in (y :: ys, s2)
    end.

(** The id read for a field written as [id] after a field written as [last], by a reader that
    believes the previous id to be [l]. *)
Definition id_seen (last l id : Z) : Z :=
  if short last id then wraps 16 (l + (id - last)) else id.

(** The value read for the encoding of [v], with [(t, l)] before and after: [t] is the last id
    put away at the beginning of a struct and [l] the id believed to be the previous one.  A
    struct begins with [l] put away and 0 in its place, and at its end the last id put away
    (not the one put away at its beginning) is taken as the previous one.  Empty maps have lost
    their types. *)
Fixpoint seen (v : tval) (s : Z * Z) : tval * (Z * Z) :=
  match v with
  | VList et l => let '(l', s') := thread seen l s in (VList et l', s')
  | VSet et l => let '(l', s') := thread seen l s in (VSet et l', s')
  | VMap kt vt [] => (VMap STOP STOP [], s)
  | VMap kt vt l =>
    let '(l', s') := thread (fun kv s => let '(k, s1) := seen (fst kv) s in
                                         let '(w, s2) := seen (snd kv) s1 in ((k, w), s2)) l s in
    (VMap kt vt l', s')
  | VStruct fs =>
    let '(fs', (_, (t, _))) :=
      thread (fun f ls => let id := id_seen (fst ls) (snd (snd ls)) (fst f) in
                          let '(w, s2) := seen (snd f) (fst (snd ls), id) in
                          ((id, w), (fst f, s2))) fs (0, (snd s, 0)) in
    (VStruct fs', (t, t))
  | _ => (v, s)
  end.
(** What is read back for [v] (the ids inside do not depend on the state, see [seen_free]). *)
Definition read_back (v : tval) : tval := fst (seen v (0, 0)).

(** The id believed to be the previous one after [v], the value of a field read as [id]. *)
Fixpoint left_by (id : Z) (v : tval) : Z :=
  match v with
  | VList _ l | VSet _ l => fold_left left_by l id
  | VMap _ _ l => fold_left (fun i kv => left_by (left_by i (fst kv)) (snd kv)) l id
  | VStruct fs =>
    fold_left (fun i f => if (sdepth (snd f) =? 0)%nat then i else left_by (fst f) (snd f)) fs id
  | _ => id
  end.
(** Every field of every struct written in the short form follows a field after which the
    believed id is the right one. *)
Fixpoint ids_kept (v : tval) : bool :=
  match v with
  | VList _ l | VSet _ l => forallb ids_kept l
  | VMap _ _ l => forallb (fun kv => ids_kept (fst kv) && ids_kept (snd kv)) l
  | VStruct fs =>
    (fix go last believed fs :=
       match fs with
       | [] => true
       | (id, w) :: fs' =>
         (negb (short last id) || (believed =? last)) && ids_kept w && go id (left_by id w) fs'
       end) 0 0 fs
  | _ => true
  end.

(** ** The header of a field *)
Lemma crd_field_any : forall c t id last, in_s 16 id -> wire_type t ->
  crd c cReadFieldBegin (sc_field last (sc_type t) id) ([], t, id_seen last (lastFieldId c) id)
    (if t =? BOOL then MkC (lastField c) (id_seen last (lastFieldId c) id) (booleanField c) true true
     else set_last c (lastField c) (id_seen last (lastFieldId c) id)).
Proof.
  intros c t id last I T. unfold id_seen. destruct (short last id) eqn:Sh.
  2: { pose proof (crd_field c t id last I T (or_intror Sh)) as D. exact D. }
  intros r rest B X. unfold sc_field in X. rewrite Sh in X.
  pose proof (sc_type_rng t T) as (Rg & N2 & N1). unfold short in Sh.
  set (hi := id - last) in *. assert (Hhi : 1 <= hi <= 15) by lia.
  assert (Hb : Z.land (hi * 16 + sc_type t) 15 = sc_type t) by (rewrite land_15; lia).
  assert (Hm : wraps 16 (Z.shiftr (Z.land (hi * 16 + sc_type t) 240) 4) = hi).
  { rewrite land_240. replace ((hi * 16 + sc_type t) / 16 mod 16) with hi by lia.
    apply wraps_id; [lia|]. unfold in_s. lia. }
  assert (Hbool : isBoolType (hi * 16 + sc_type t) = (t =? BOOL)).
  { unfold isBoolType. rewrite Hb. unfold COMPACT_BOOLEAN_TRUE, COMPACT_BOOLEAN_FALSE. lia. }
  assert (Htr : t = BOOL -> (sc_type t =? COMPACT_BOOLEAN_TRUE) = true) by
    (unfold COMPACT_BOOLEAN_TRUE; intros; lia).
  unfold cReadFieldBegin.
  destruct (crd_byte c _ r _ B X) as (r1 & R1 & B1 & X1). rewrite R1. cbn [obind].
  rewrite Hb, Hm. replace (sc_type t =? STOP) with false by (unfold STOP; lia).
  replace (hi =? 0) with false by lia. cbn [obind snd].
  rewrite wraps_add by lia. rewrite Hbool, ttype_ok by assumption.
  exists r1. destruct (t =? BOOL) eqn:EB; [rewrite Htr by lia|]; auto.
Qed.

(** ** Reading a value without false fields *)
Definition st_ok (c : cstate) (s : Z * Z) (c' : cstate) : Prop :=
  boolValueIsNotNull c' = false /\ (length (lastField c) <= length (lastField c'))%nat /\
  hd 0 (lastField c') = fst s /\ lastFieldId c' = snd s.
Definition at_st (c : cstate) (s : Z * Z) : Prop :=
  boolValueIsNotNull c = false /\ hd 0 (lastField c) = fst s /\ lastFieldId c = snd s.
Lemma st_ok_at : forall c s c', st_ok c s c' -> at_st c' s.
Proof. intros c s c' (A & _ & C & D). repeat split; assumption. Qed.
Lemma at_st_ok : forall c s, at_st c s -> st_ok c s c.
Proof. intros c s (A & C & D). split; [assumption|]. split; [lia|]. split; assumption. Qed.
Lemma st_ok_trans : forall c s c1 s' c2, st_ok c s c1 -> st_ok c1 s' c2 -> st_ok c s' c2.
Proof.
  intros c s c1 s' c2 (A & B & _) (A' & B' & C' & D'). split; [assumption|]. split; [lia|].
  split; assumption.
Qed.

Definition sgood (v : tval) : Prop :=
  forall f c s, (need v <= f)%nat -> at_st c s ->
  tri c (read_val compactR f (vtype v)) (sc_val v) (fst (seen v s)) (st_ok c (snd (seen v s))).

Lemma tri_thread : forall A B (m : hop cr B) (en : A -> bytes) (g : A -> Z * Z -> B * (Z * Z)) l,
  (forall x c s, In x l -> at_st c s -> tri c m (en x) (fst (g x s)) (st_ok c (snd (g x s)))) ->
  forall c s, at_st c s ->
  tri c (hrepeat (length l) m) (concat (map en l)) (fst (thread g l s)) (st_ok c (snd (thread g l s))).
Proof.
  induction l as [|x l IH]; intros H c s N; cbn [length hrepeat map concat thread].
  - eapply tri_weak; [apply tri_ret|]. intros c' <-. apply at_st_ok, N.
  - pose proof (H x c s (or_introl eq_refl) N) as Hx. destruct (g x s) as [y s1]. cbn [fst snd] in Hx.
    eapply tri_bind; [exact Hx|]. intros c1 A1.
    pose proof (IH (fun x c s Hx => H x c s (or_intror Hx)) c1 s1 (st_ok_at _ _ _ A1)) as Hl.
    destruct (thread g l s1) as [ys s2]. cbn [fst snd] in *.
    eapply tri_bind0; [exact Hl|]. intros c2 A2. eapply tri_weak; [apply tri_ret|]. intros c' <-.
    eapply st_ok_trans; eauto.
Qed.

(** The fields of a struct, as a function of its own. *)
Definition field_seen (f : Z * tval) (ls : Z * (Z * Z)) : (Z * tval) * (Z * (Z * Z)) :=
  let id := id_seen (fst ls) (snd (snd ls)) (fst f) in
  let '(w, s2) := seen (snd f) (fst (snd ls), id) in ((id, w), (fst f, s2)).
Definition pair_seen (kv : tval * tval) (s : Z * Z) : (tval * tval) * (Z * Z) :=
  let '(k, s1) := seen (fst kv) s in let '(w, s2) := seen (snd kv) s1 in ((k, w), s2).
Lemma seen_struct : forall fs s, seen (VStruct fs) s =
  let r := thread field_seen fs (0, (snd s, 0)) in
  (VStruct (fst r), (fst (snd (snd r)), fst (snd (snd r)))).
Proof.
  intros fs s. cbn [seen]. fold field_seen.
  destruct (thread field_seen fs (0, (snd s, 0))) as [a [b [t d]]]. reflexivity.
Qed.
Lemma seen_map : forall kt vt x l s, seen (VMap kt vt (x :: l)) s =
  let r := thread pair_seen (x :: l) s in (VMap kt vt (fst r), snd r).
Proof.
  intros kt vt x l s. cbn [seen]. fold pair_seen. destruct (thread pair_seen (x :: l) s). reflexivity.
Qed.
Lemma seen_list : forall et l s, seen (VList et l) s =
  (VList et (fst (thread seen l s)), snd (thread seen l s)).
Proof. intros. cbn [seen]. destruct (thread seen l s). reflexivity. Qed.
Lemma seen_set : forall et l s, seen (VSet et l) s =
  (VSet et (fst (thread seen l s)), snd (thread seen l s)).
Proof. intros. cbn [seen]. destruct (thread seen l s). reflexivity. Qed.

Lemma tri_sfields : forall fs,
  (forall x, In x fs -> in_s 16 (fst x) /\ is_false (snd x) = false /\ sgood (snd x)) ->
  forall last c s f, at_st c s ->
  (fold_right (fun x n => S (Nat.max (need (snd x)) n)) 1%nat fs <= f)%nat ->
  tri c (read_fields compactR f) (sc_fields last fs)
    (fst (thread field_seen fs (last, s))) (st_ok c (snd (snd (thread field_seen fs (last, s))))).
Proof.
  induction fs as [|[id v] fs IH]; intros H last c s f N Hf;
    (destruct f as [|f]; [cbn in Hf; lia|]); rewrite read_fields_S; cbn [sc_fields].
  - eapply tri_bind0; [apply tri_crd, crd_stop|]. intros c1 <-. cbn beta iota.
    change (STOP =? STOP) with true. cbn iota.
    eapply tri_weak; [apply tri_ret|]. intros c' <-. apply at_st_ok, N.
  - destruct (H (id, v) (or_introl eq_refl)) as (I & NF & G). cbn [fst snd] in *.
    cbn [fold_right snd] in Hf.
    assert (Hn : (need v <= f)%nat) by lia.
    cbn [thread]. change (field_seen (id, v) (last, s)) with
      (let '(w, s2) := seen v (fst s, id_seen last (snd s) id) in
       ((id_seen last (snd s) id, w), (id, s2))).
    destruct N as (N & T & L).
    set (id' := id_seen last (snd s) id) in *.
    set (c0 := set_last c (lastField c) id').
    assert (N0 : at_st c0 (fst s, id')) by (repeat split; assumption).
    assert (Rest : forall c1, st_ok c0 (snd (seen v (fst s, id'))) c1 ->
      tri c1 (_ <-- hdo (rFieldEnd compactR) ;; fs0 <-- read_fields compactR f ;;
              hret ((id', fst (seen v (fst s, id'))) :: fs0)) (sc_fields id fs)
        (fst (let '(y, s1) := let '(w, s2) := seen v (fst s, id') in (id', w, (id, s2)) in
              let '(ys, s2) := thread field_seen fs s1 in (y :: ys, s2)))
        (st_ok c (snd (snd (let '(y, s1) := let '(w, s2) := seen v (fst s, id') in (id', w, (id, s2)) in
              let '(ys, s2) := thread field_seen fs s1 in (y :: ys, s2)))))).
    { intros c1 A1. destruct (seen v (fst s, id')) as [w s1]. cbn [fst snd] in *.
      change (sc_fields id fs) with ([] ++ sc_fields id fs).
      eapply tri_bind; [apply tri_nop|]. intros c2 <-.
      pose proof (IH (fun x Hx => H x (or_intror Hx)) id c1 s1 f (st_ok_at _ _ _ A1) ltac:(lia)) as Hr.
      destruct (thread field_seen fs (id, s1)) as [ys s2]. cbn [fst snd] in *.
      eapply tri_bind0; [exact Hr|]. intros c3 A3. eapply tri_weak; [apply tri_ret|].
      intros c' <-. eapply st_ok_trans; [|exact A3]. exact A1. }
    pose proof (G f c0 (fst s, id') Hn N0) as Gv.
    destruct (vtype v =? BOOL) eqn:EB.
    + destruct v; try discriminate EB. destruct b; [|discriminate NF].
      unfold sc_fieldval. cbn [fst snd]. change (sc_bool true) with (sc_type BOOL).
      eapply tri_bind.
      { apply tri_crd, crd_field_any; [assumption|unfold wire_type; cbn; tauto]. }
      rewrite L. fold id'.
      intros c1 <-. cbn [rFieldEnd compactR]. change (BOOL =? STOP) with false. cbn iota beta.
      change (sc_fields id fs) with ([] ++ sc_fields id fs).
      destruct f as [|f']; [cbn in Hn; lia|].
      change (read_val compactR (S f') BOOL) with (v <-- hlift cReadBool ;; hret (VBool v)).
      eapply tri_bind.
      { eapply tri_bind0; [apply tri_bool_true; reflexivity|]. intros c2 <-. apply tri_ret. }
      intros c2 <-. apply Rest. cbn [seen fst snd].
      split; [reflexivity|]. cbn. split; [lia|]. split; [exact T|reflexivity].
    + assert (FV : sc_fieldval last (id, v) = sc_field last (sc_type (vtype v)) id ++ sc_val v).
      { unfold sc_fieldval. cbn [fst snd]. destruct v; try reflexivity. discriminate EB. }
      rewrite FV, <- app_assoc.
      eapply tri_bind.
      { apply tri_crd, crd_field_any; [assumption|apply vtype_wire]. }
      rewrite EB, L. fold id' c0. intros c1 <-. cbn beta iota.
      replace (vtype v =? STOP) with false by (symmetry; apply Z.eqb_neq, wire_not_stop).
      eapply tri_bind; [exact Gv|]. exact Rest.
Qed.

Theorem seen_val : forall v, wf v -> no_false_field v = true -> sgood v.
Proof.
  induction v using tval_ind'; intros Hwf NF f c st Hf N;
    (destruct f as [|f]; [cbn in Hf; lia|]).
  Ltac scase L := eapply tri_bind0; [apply tri_crd, L|
     let c1 := fresh in intros c1 <-; eapply tri_weak; [apply tri_ret|];
     let c2 := fresh in intros c2 <-; apply at_st_ok; assumption].
  - change (read_val compactR (S f) (vtype (VBool b))) with (v <-- hlift cReadBool ;; hret (VBool v)).
    scase (crd_bool c b (proj1 N)).
  - change (read_val compactR (S f) (vtype (VByte z))) with (v <-- hlift cReadByte ;; hret (VByte v)).
    scase (crd_byte c z).
  - change (read_val compactR (S f) (vtype (VI16 z))) with (v <-- hlift cReadI16 ;; hret (VI16 v)).
    scase (crd_i16 c z Hwf).
  - change (read_val compactR (S f) (vtype (VI32 z))) with (v <-- hlift cReadI32 ;; hret (VI32 v)).
    scase (crd_i32 c z Hwf).
  - change (read_val compactR (S f) (vtype (VI64 z))) with (v <-- hlift cReadI64 ;; hret (VI64 v)).
    scase (crd_i64 c z Hwf).
  - change (read_val compactR (S f) (vtype (VDouble z)))
      with (v <-- hlift cReadDouble ;; hret (VDouble v)).
    scase (crd_double c z Hwf).
  - change (read_val compactR (S f) (vtype (VStr s)))
      with (v <-- hlift cReadString ;; hret (VStr v)).
    destruct Hwf as [_ L]. scase (crd_string c s L).
  - cbn [wf need no_false_field] in *. destruct Hwf as (T & L & A). rewrite all_in in A.
    rewrite Forall_forall in H. rewrite forallb_forall in NF.
    change (read_val compactR (S f) (vtype (VList et l))) with
     ('(et, n) <-- hlift cReadListBegin ;;
      l <-- hrepeat (Z.to_nat n) (read_val compactR f et) ;;
      _ <-- hdo nop ;; hret (VList et l)).
    rewrite seen_list. cbn [sc_val fst snd].
    eapply tri_bind; [apply tri_crd, crd_list; [assumption|lia]|]. intros c1 <-. cbn beta iota.
    rewrite Nat2Z.id.
    eapply tri_bind0; [apply tri_thread with (g := seen); [|exact N]|].
    { intros x c0 s0 Hx N0. destruct (A x Hx) as [Ht Hw]. rewrite <- Ht.
      apply H; auto. pose proof (max_list_in' _ need l x Hx). lia. }
    intros c1 A1. eapply tri_bind0; [apply tri_nop|]. intros c2 <-.
    eapply tri_weak; [apply tri_ret|]. intros c3 <-. assumption.
  - cbn [wf need no_false_field] in *. destruct Hwf as (T & L & A). rewrite all_in in A.
    rewrite Forall_forall in H. rewrite forallb_forall in NF.
    change (read_val compactR (S f) (vtype (VSet et l))) with
     ('(et, n) <-- hlift cReadListBegin ;;
      l <-- hrepeat (Z.to_nat n) (read_val compactR f et) ;;
      _ <-- hdo nop ;; hret (VSet et l)).
    rewrite seen_set. cbn [sc_val fst snd].
    eapply tri_bind; [apply tri_crd, crd_list; [assumption|lia]|]. intros c1 <-. cbn beta iota.
    rewrite Nat2Z.id.
    eapply tri_bind0; [apply tri_thread with (g := seen); [|exact N]|].
    { intros x c0 s0 Hx N0. destruct (A x Hx) as [Ht Hw]. rewrite <- Ht.
      apply H; auto. pose proof (max_list_in' _ need l x Hx). lia. }
    intros c1 A1. eapply tri_bind0; [apply tri_nop|]. intros c2 <-.
    eapply tri_weak; [apply tri_ret|]. intros c3 <-. assumption.
  - cbn [wf need no_false_field] in *. destruct Hwf as (T1 & T2 & L & A).
    rewrite all_in in A. rewrite Forall_forall in H. rewrite forallb_forall in NF.
    change (read_val compactR (S f) (vtype (VMap kt vt l))) with
     ('(kt, vt, n) <-- hlift cReadMapBegin ;;
      l <-- hrepeat (Z.to_nat n)
              (k <-- read_val compactR f kt ;; v <-- read_val compactR f vt ;; hret (k, v)) ;;
      _ <-- hdo nop ;; hret (VMap kt vt l)).
    cbn [sc_val].
    eapply tri_bind; [apply tri_crd, crd_map; [assumption|assumption|lia]|]. intros c1 <-.
    destruct l as [|kv l'].
    { cbn [length Z.of_nat map concat seen]. change (0 =? 0) with true. cbn beta iota.
      change (Z.to_nat 0) with O. cbn [hrepeat].
      eapply tri_bind0; [apply tri_ret|]. intros c2 <-.
      eapply tri_bind0; [apply tri_nop|]. intros c2 <-.
      eapply tri_weak; [apply tri_ret|]. intros c3 <-. apply at_st_ok, N. }
    rewrite seen_map. cbv zeta. cbn [fst snd].
    set (l := kv :: l') in *.
    replace (Z.of_nat (length l) =? 0) with false by (subst l; cbn [length]; lia). cbn beta iota.
    rewrite Nat2Z.id.
    eapply tri_bind0; [apply tri_thread with (g := pair_seen); [|exact N]|].
    { intros x c0 s0 Hx N0. destruct (A x Hx) as [[Hkt Hkw] [Hvt Hvw]]. destruct (H x Hx) as [Hk Hv].
      specialize (NF x Hx). apply andb_true_iff in NF.
      destruct NF as [NFk NFv].
      pose proof (max_list_in' _ (fun kv => Nat.max (need (fst kv)) (need (snd kv))) l _ Hx) as Mx.
      cbn beta in Mx. rewrite <- Hkt, <- Hvt. unfold pair_seen.
      pose proof (Hk Hkw NFk f c0 s0 ltac:(lia) N0) as Gk.
      destruct (seen (fst x) s0) as [k1 s1]. cbn [fst snd] in Gk.
      eapply tri_bind; [exact Gk|]. intros c2 A2.
      pose proof (Hv Hvw NFv f c2 s1 ltac:(lia) (st_ok_at _ _ _ A2)) as Gv.
      destruct (seen (snd x) s1) as [v2 s2]. cbn [fst snd] in *.
      eapply tri_bind0; [exact Gv|]. intros c3 A3.
      eapply tri_weak; [apply tri_ret|]. intros c4 <-. eapply st_ok_trans; eauto. }
    intros c1 A1. eapply tri_bind0; [apply tri_nop|]. intros c2 <-.
    eapply tri_weak; [apply tri_ret|]. intros c3 <-. assumption.
  - cbn [wf need no_false_field] in *. rewrite all_in in Hwf.
    rewrite Forall_forall in H. rewrite forallb_forall in NF.
    change (read_val compactR (S f) (vtype (VStruct fs))) with
     (_ <-- hlift cReadStructBegin ;;
      fs <-- read_fields compactR f ;;
      _ <-- hdo cReadStructEnd ;; hret (VStruct fs)).
    rewrite sc_val_struct, seen_struct. cbv zeta. cbn [fst snd].
    change (sc_fields 0 fs) with ([] ++ sc_fields 0 fs).
    eapply (tri_bind _ _ _ _ _ _ _ [] _ (eq (set_last c (lastFieldId c :: lastField c) 0))).
    { intros r rest B X. eexists r, _. split; [reflexivity|]. auto. }
    intros c1 <-.
    eapply tri_bind0.
    { apply tri_sfields with (s := (snd st, 0)); [| |lia].
      - intros x Hx. destruct (Hwf x Hx). specialize (NF x Hx). apply andb_true_iff in NF.
        destruct NF as [NF1 NF2]. apply negb_true_iff in NF1. split; [assumption|].
        split; [assumption|]. apply H; auto.
      - destruct N as (N & T & L). split; [exact N|]. split; [exact L|reflexivity]. }
    intros c2 (N2 & L2 & T2 & _). cbn [lastField set_last length] in L2.
    eapply (tri_bind0 _ _ _ _ _ _ tt _ (eq (set_last c2 (lastField c2) (hd 0 (lastField c2))))).
    { intros r rest B X. destruct (lastField c2) as [|i stk] eqn:E; [cbn in L2; lia|].
      exists r, (set_last c2 (i :: stk) i). unfold hdo, cReadStructEnd. rewrite E. cbn. auto. }
    intros c3 <-. eapply tri_weak; [apply tri_ret|]. intros c' <-.
    split; [exact N2|]. cbn [lastField lastFieldId set_last]. split; [lia|].
    split; exact T2.
Qed.

(** ** The ids read do not depend on the state before *)
Definition free {A B} (g : A -> Z * Z -> B * (Z * Z)) (x : A) : Prop :=
  forall s1 s2, fst (g x s1) = fst (g x s2) /\
    (snd s1 = snd s2 -> snd (snd (g x s1)) = snd (snd (g x s2))).
Lemma thread_free : forall A B (g : A -> Z * Z -> B * (Z * Z)) l,
  (forall x, In x l -> free g x) -> free (thread g) l.
Proof.
  induction l as [|x l IH]; intros H s1 s2; [split; [reflexivity|auto]|]. cbn [thread].
  destruct (H x (or_introl eq_refl) s1 s2) as [E1 E2].
  destruct (g x s1) as [y1 s1'], (g x s2) as [y2 s2']. cbn [fst snd] in *. subst y2.
  destruct (IH (fun x Hx => H x (or_intror Hx)) s1' s2') as [F1 F2].
  destruct (thread g l s1') as [ys1 s1''], (thread g l s2') as [ys2 s2'']. cbn [fst snd] in *.
  subst. auto.
Qed.
Lemma fields_free : forall fs, (forall x, In x fs -> free seen (snd x)) ->
  forall last s1 s2, snd s1 = snd s2 ->
  fst (thread field_seen fs (last, s1)) = fst (thread field_seen fs (last, s2)).
Proof.
  induction fs as [|[id v] fs IH]; intros H last s1 s2 E; [reflexivity|]. cbn [thread].
  unfold field_seen at 1 3. cbn [fst snd]. rewrite E. set (i := id_seen last (snd s2) id).
  destruct (H (id, v) (or_introl eq_refl) (fst s1, i) (fst s2, i)) as [E1 E2]. cbn [fst snd] in *.
  destruct (seen v (fst s1, i)) as [w1 s1'], (seen v (fst s2, i)) as [w2 s2']. cbn [fst snd] in *.
  subst w2. specialize (IH (fun x Hx => H x (or_intror Hx)) id s1' s2' (E2 eq_refl)).
  destruct (thread field_seen fs (id, s1')), (thread field_seen fs (id, s2')). cbn [fst snd] in *.
  congruence.
Qed.
Lemma seen_free : forall v, free seen v.
Proof.
  induction v using tval_ind'; intros s1 s2; try (split; [reflexivity|auto]; fail).
  - rewrite Forall_forall in H. rewrite !seen_list. cbn [fst snd].
    destruct (thread_free _ _ seen l H s1 s2) as [-> E]. auto.
  - rewrite Forall_forall in H. rewrite !seen_set. cbn [fst snd].
    destruct (thread_free _ _ seen l H s1 s2) as [-> E]. auto.
  - rewrite Forall_forall in H. destruct l as [|x l]; [split; [reflexivity|auto]|].
    rewrite !seen_map. cbv zeta. cbn [fst snd].
    assert (G : forall x0, In x0 (x :: l) -> free pair_seen x0).
    { intros y Hy t1 t2. destruct (H y Hy) as [Hk Hv]. unfold pair_seen.
      destruct (Hk t1 t2) as [K1 K2].
      destruct (seen (fst y) t1) as [k1 u1], (seen (fst y) t2) as [k2 u2]. cbn [fst snd] in *. subst.
      destruct (Hv u1 u2) as [V1 V2].
      destruct (seen (snd y) u1) as [v1 w1], (seen (snd y) u2) as [v2 w2]. cbn [fst snd] in *. subst.
      auto. }
    destruct (thread_free _ _ pair_seen _ G s1 s2) as [-> E]. auto.
  - rewrite Forall_forall in H. rewrite !seen_struct. cbv zeta. cbn [fst snd]. split.
    + f_equal. apply (fields_free fs H 0 (snd s1, 0) (snd s2, 0)). reflexivity.
    + intros ->. reflexivity.
Qed.

(** ** A value with a false field somewhere *)
Definition fails {A} (c : cstate) (op : hop cr A) (bs : bytes) : Prop :=
  forall r rest, benign r -> content r = bs ++ rest ->
  exists s', op (r, c) = Ok (inr (EProtocol UNKNOWN_PROTOCOL_EXCEPTION), s').
Lemma fails_bind_l : forall A B c (m : hop cr A) (k : A -> hop cr B) bs bs',
  fails c m bs -> fails c (hbind m k) (bs ++ bs').
Proof.
  intros A B c m k bs bs' H r rest Bn X. rewrite <- app_assoc in X.
  destruct (H r _ Bn X) as (s' & R). unfold hbind. rewrite R. cbn. eauto.
Qed.
Lemma fails_bind_r : forall A B c (m : hop cr A) (k : A -> hop cr B) bs bs' a Q,
  tri c m bs a Q -> (forall c1, Q c1 -> fails c1 (k a) bs') -> fails c (hbind m k) (bs ++ bs').
Proof.
  intros A B c m k bs bs' a Q H K r rest Bn X. rewrite <- app_assoc in X.
  destruct (H r _ Bn X) as (r1 & c1 & R & B1 & Q1 & X1).
  destruct (K c1 Q1 r1 _ B1 X1) as (s' & R'). unfold hbind. rewrite R. cbn. eauto.
Qed.
Lemma fails_bind_0 : forall A B c (m : hop cr A) (k : A -> hop cr B) bs,
  fails c m bs -> fails c (hbind m k) bs.
Proof. intros. rewrite <- (app_nil_r bs). apply fails_bind_l. assumption. Qed.

(** The header of a false field. *)
Lemma fails_header : forall c last id, in_s 16 id ->
  fails c (hlift cReadFieldBegin) (sc_field last 2 id).
Proof.
  intros c last id I r rest B X. unfold hlift, cReadFieldBegin, sc_field in *.
  destruct (short last id) eqn:Sh.
  - unfold short in Sh. destruct (crd_byte c _ r _ B X) as (r1 & R1 & B1 & X1). rewrite R1. cbn [obind].
    rewrite land_15, land_240. replace (((id - last) * 16 + 2) mod 16) with 2 by lia.
    replace (((id - last) * 16 + 2) / 16 mod 16) with (id - last) by lia.
    change (2 =? STOP) with false. cbn iota.
    rewrite (wraps_id 16 (id - last)) by (unfold in_s; lia).
    replace (id - last =? 0) with false by lia. cbn [obind].
    change (getTType 2) with (STOP, Some (EOther 0)). cbn. eauto.
  - change (2 :: sc_int id) with ([2] ++ sc_int id) in X. rewrite <- app_assoc in X.
    destruct (crd_byte c _ r _ B X) as (r1 & R1 & B1 & X1). rewrite R1. cbn [obind].
    change (Z.land 2 15 =? STOP) with false.
    change (wraps 16 (Z.shiftr (Z.land 2 240) 4) =? 0) with true. cbn iota.
    destruct (crd_i16 c id I r1 _ B1 X1) as (r2 & R2 & B2 & X2). rewrite R2. cbn [obind].
    change (getTType (Z.land 2 15)) with (STOP, Some (EOther 0)). cbn. eauto.
Qed.

Definition bad (v : tval) : Prop := forall f c, (need v <= f)%nat -> boolValueIsNotNull c = false ->
  fails c (read_val compactR f (vtype v)) (sc_val v).

(** A sequence in which some element fails and those before it can be read. *)
Lemma fails_repeat : forall A B (m : hop cr B) (en : A -> bytes) (g : A -> Z * Z -> B * (Z * Z))
  (ok : A -> bool) l,
  (forall x c s, In x l -> ok x = true -> at_st c s ->
     tri c m (en x) (fst (g x s)) (st_ok c (snd (g x s)))) ->
  (forall x c, In x l -> ok x = false -> boolValueIsNotNull c = false -> fails c m (en x)) ->
  forallb ok l = false -> forall c, boolValueIsNotNull c = false ->
  fails c (hrepeat (length l) m) (concat (map en l)).
Proof.
  induction l as [|x l IH]; intros H1 H2 F c N; [discriminate|].
  cbn [length hrepeat map concat]. cbn [forallb] in F. destruct (ok x) eqn:E.
  - eapply fails_bind_r.
    + apply (H1 x c (hd 0 (lastField c), lastFieldId c)); [left; reflexivity|exact E|].
      repeat split. exact N.
    + intros c1 A1. apply fails_bind_0. apply IH; auto.
      * intros; apply H1; [right; assumption|assumption|assumption].
      * intros; apply H2; [right; assumption|assumption|assumption].
      * apply A1.
  - apply fails_bind_l, H2; [left; reflexivity|exact E|exact N].
Qed.

Lemma fails_fields : forall fs,
  (forall x, In x fs -> in_s 16 (fst x) /\
     (no_false_field (snd x) = true -> sgood (snd x)) /\
     (no_false_field (snd x) = false -> bad (snd x))) ->
  forallb (fun x => negb (is_false (snd x)) && no_false_field (snd x)) fs = false ->
  forall last c f, boolValueIsNotNull c = false ->
  (fold_right (fun x n => S (Nat.max (need (snd x)) n)) 1%nat fs <= f)%nat ->
  fails c (read_fields compactR f) (sc_fields last fs).
Proof.
  induction fs as [|[id v] fs IH]; intros H F last c f N Hf; [discriminate|].
  destruct f as [|f]; [cbn in Hf; lia|]. rewrite read_fields_S. cbn [sc_fields fst].
  destruct (H (id, v) (or_introl eq_refl)) as (I & G & Bd). cbn [fst snd] in *.
  cbn [fold_right snd] in Hf. assert (Hn : (need v <= f)%nat) by lia.
  cbn [forallb snd] in F.
  set (id' := id_seen last (lastFieldId c) id).
  assert (Rest : (negb (is_false v) && no_false_field v = true) ->
     forall c1 w, boolValueIsNotNull c1 = false ->
     fails c1 (_ <-- hdo (rFieldEnd compactR) ;; fs0 <-- read_fields compactR f ;;
              hret ((id', w) :: fs0)) (sc_fields id fs)).
  { intros E c1 w N1. rewrite E in F. cbn [andb] in F.
    change (sc_fields id fs) with ([] ++ sc_fields id fs).
    eapply fails_bind_r; [apply tri_nop|]. intros c2 <-. apply fails_bind_0.
    apply IH; [intros x Hx; apply H; right; exact Hx|exact F|exact N1|lia]. }
  destruct (vtype v =? BOOL) eqn:EB.
  - destruct v; try discriminate EB. unfold sc_fieldval. cbn [fst snd]. destruct b.
    + change (sc_bool true) with (sc_type BOOL). eapply fails_bind_r.
      { apply tri_crd, crd_field_any; [assumption|unfold wire_type; cbn; tauto]. }
      intros c1 <-. cbn [rFieldEnd compactR]. change (BOOL =? STOP) with false. cbn iota beta.
      change (sc_fields id fs) with ([] ++ sc_fields id fs).
      destruct f as [|f']; [cbn in Hn; lia|].
      change (read_val compactR (S f') BOOL) with (v <-- hlift cReadBool ;; hret (VBool v)).
      eapply fails_bind_r.
      { eapply tri_bind0; [apply tri_bool_true; reflexivity|]. intros c2 <-. apply tri_ret. }
      intros c2 <-. apply Rest; reflexivity.
    + change (sc_bool false) with 2. apply fails_bind_l, fails_header. exact I.
  - assert (FV : sc_fieldval last (id, v) = sc_field last (sc_type (vtype v)) id ++ sc_val v).
    { unfold sc_fieldval. cbn [fst snd]. destruct v; try reflexivity. discriminate EB. }
    assert (NI : is_false v = false) by (destruct v; try reflexivity; discriminate EB).
    rewrite FV, <- app_assoc.
    eapply fails_bind_r.
    { apply tri_crd, crd_field_any; [assumption|apply vtype_wire]. }
    rewrite EB. fold id'. intros c1 <-. cbn beta iota.
    replace (vtype v =? STOP) with false by (symmetry; apply Z.eqb_neq, wire_not_stop).
    destruct (no_false_field v) eqn:E.
    + eapply fails_bind_r.
      * apply (G eq_refl f _ (hd 0 (lastField c), id')); [exact Hn|]. repeat split. exact N.
      * intros c1 A1. apply Rest; [rewrite NI; reflexivity|apply A1].
    + apply fails_bind_l. apply Bd; [reflexivity|exact Hn|exact N].
Qed.

Theorem false_val : forall v, wf v -> no_false_field v = false -> bad v.
Proof.
  induction v using tval_ind'; intros Hwf NF f c Hf N; try discriminate NF;
    (destruct f as [|f]; [cbn in Hf; lia|]).
  - cbn [wf need no_false_field] in *. destruct Hwf as (T & L & A). rewrite all_in in A.
    rewrite Forall_forall in H.
    change (read_val compactR (S f) (vtype (VList et l))) with
     ('(et, n) <-- hlift cReadListBegin ;;
      l <-- hrepeat (Z.to_nat n) (read_val compactR f et) ;;
      _ <-- hdo nop ;; hret (VList et l)).
    cbn [sc_val].
    eapply fails_bind_r; [apply tri_crd, crd_list; [assumption|lia]|]. intros c1 <-. cbn beta iota.
    rewrite Nat2Z.id. apply fails_bind_0.
    apply fails_repeat with (g := seen) (ok := no_false_field); auto.
    + intros x c0 s0 Hx E N0. destruct (A x Hx) as [Ht Hw]. rewrite <- Ht.
      apply seen_val; auto. pose proof (max_list_in' _ need l x Hx). lia.
    + intros x c0 Hx E N0. destruct (A x Hx) as [Ht Hw]. rewrite <- Ht.
      apply H; auto. pose proof (max_list_in' _ need l x Hx). lia.
  - cbn [wf need no_false_field] in *. destruct Hwf as (T & L & A). rewrite all_in in A.
    rewrite Forall_forall in H.
    change (read_val compactR (S f) (vtype (VSet et l))) with
     ('(et, n) <-- hlift cReadListBegin ;;
      l <-- hrepeat (Z.to_nat n) (read_val compactR f et) ;;
      _ <-- hdo nop ;; hret (VSet et l)).
    cbn [sc_val].
    eapply fails_bind_r; [apply tri_crd, crd_list; [assumption|lia]|]. intros c1 <-. cbn beta iota.
    rewrite Nat2Z.id. apply fails_bind_0.
    apply fails_repeat with (g := seen) (ok := no_false_field); auto.
    + intros x c0 s0 Hx E N0. destruct (A x Hx) as [Ht Hw]. rewrite <- Ht.
      apply seen_val; auto. pose proof (max_list_in' _ need l x Hx). lia.
    + intros x c0 Hx E N0. destruct (A x Hx) as [Ht Hw]. rewrite <- Ht.
      apply H; auto. pose proof (max_list_in' _ need l x Hx). lia.
  - cbn [wf need no_false_field] in *. destruct Hwf as (T1 & T2 & L & A).
    rewrite all_in in A. rewrite Forall_forall in H.
    change (read_val compactR (S f) (vtype (VMap kt vt l))) with
     ('(kt, vt, n) <-- hlift cReadMapBegin ;;
      l <-- hrepeat (Z.to_nat n)
              (k <-- read_val compactR f kt ;; v <-- read_val compactR f vt ;; hret (k, v)) ;;
      _ <-- hdo nop ;; hret (VMap kt vt l)).
    cbn [sc_val].
    eapply fails_bind_r; [apply tri_crd, crd_map; [assumption|assumption|lia]|]. intros c1 <-.
    destruct l as [|kv l']; [discriminate NF|]. set (l := kv :: l') in *.
    replace (Z.of_nat (length l) =? 0) with false by (subst l; cbn [length]; lia). cbn beta iota.
    rewrite Nat2Z.id. apply fails_bind_0.
    eapply fails_repeat with (g := pair_seen); [| |exact NF|exact N].
    + intros x c0 s0 Hx E N0. destruct (A x Hx) as [[Hkt Hkw] [Hvt Hvw]].
      apply andb_true_iff in E. destruct E as [NFk NFv].
      pose proof (max_list_in' _ (fun kv => Nat.max (need (fst kv)) (need (snd kv))) l _ Hx) as Mx.
      cbn beta in Mx. rewrite <- Hkt, <- Hvt. unfold pair_seen.
      pose proof (seen_val _ Hkw NFk f c0 s0 ltac:(lia) N0) as Gk.
      destruct (seen (fst x) s0) as [k1 s1]. cbn [fst snd] in Gk.
      eapply tri_bind; [exact Gk|]. intros c2 A2.
      pose proof (seen_val _ Hvw NFv f c2 s1 ltac:(lia) (st_ok_at _ _ _ A2)) as Gv.
      destruct (seen (snd x) s1) as [v2 s2]. cbn [fst snd] in *.
      eapply tri_bind0; [exact Gv|]. intros c3 A3.
      eapply tri_weak; [apply tri_ret|]. intros c4 <-. eapply st_ok_trans; eauto.
    + intros x c0 Hx E N0. destruct (A x Hx) as [[Hkt Hkw] [Hvt Hvw]]. destruct (H x Hx) as [Hk Hv].
      pose proof (max_list_in' _ (fun kv => Nat.max (need (fst kv)) (need (snd kv))) l _ Hx) as Mx.
      cbn beta in Mx, E. rewrite <- Hkt, <- Hvt.
      destruct (no_false_field (fst x)) eqn:Ek.
      * eapply fails_bind_r.
        -- apply (seen_val _ Hkw Ek f c0 (hd 0 (lastField c0), lastFieldId c0)); [lia|].
           repeat split. exact N0.
        -- intros c1 A1. apply fails_bind_0. apply Hv; [exact Hvw|exact E|lia|apply A1].
      * apply fails_bind_l. apply Hk; [exact Hkw|reflexivity|lia|exact N0].
  - cbn [wf need no_false_field] in *. rewrite all_in in Hwf. rewrite Forall_forall in H.
    change (read_val compactR (S f) (vtype (VStruct fs))) with
     (_ <-- hlift cReadStructBegin ;;
      fs <-- read_fields compactR f ;;
      _ <-- hdo cReadStructEnd ;; hret (VStruct fs)).
    rewrite sc_val_struct. change (sc_fields 0 fs) with ([] ++ sc_fields 0 fs).
    eapply (fails_bind_r _ _ _ _ _ [] _ _ (eq (set_last c (lastFieldId c :: lastField c) 0))).
    { intros r rest B X. eexists r, _. split; [reflexivity|]. auto. }
    intros c1 <-. apply fails_bind_0. apply fails_fields; [|exact NF|exact N|lia].
    intros x Hx. destruct (Hwf x Hx). split; [assumption|]. split.
    + intros. apply seen_val; assumption.
    + intros. apply H; assumption.
Qed.

(** ** When the value read is the value written *)
Fixpoint fields_kept (last believed : Z) (fs : list (Z * tval)) : bool :=
  match fs with
  | [] => true
  | (id, w) :: fs' =>
    (negb (short last id) || (believed =? last)) && ids_kept w && fields_kept id (left_by id w) fs'
  end.
Lemma ids_kept_struct : forall fs, ids_kept (VStruct fs) = fields_kept 0 0 fs.
Proof.
  intros fs. cbn [ids_kept].
  match goal with |- ?g 0 0 fs = _ => set (go := g) end.
  assert (E : forall fs last b, go last b fs = fields_kept last b fs).
  { clear fs. induction fs as [|[id v] fs IH]; intros last b; [reflexivity|].
    cbn [fields_kept]. rewrite <- IH. reflexivity. }
  apply E.
Qed.

Lemma fold_id : forall A B (f : A -> B -> A) l a, (forall a x, In x l -> f a x = a) -> fold_left f l a = a.
Proof.
  induction l as [|x l IH]; intros a H; [reflexivity|]. cbn [fold_left].
  rewrite H by (left; reflexivity). apply IH. intros; apply H; right; assumption.
Qed.
Lemma fold_inv : forall A B (f : A -> B -> A) (P : A -> Prop) l a,
  (forall a x, In x l -> P a -> P (f a x)) -> P a -> P (fold_left f l a).
Proof.
  induction l as [|x l IH]; intros a H Pa; [assumption|]. cbn [fold_left]. apply IH.
  - intros; apply H; [right|]; assumption.
  - apply H; [left; reflexivity|assumption].
Qed.
Lemma max_list_0 : forall A (g : A -> nat) l, max_list (map g l) = O -> forall x, In x l -> g x = O.
Proof. intros A g l E x Hx. pose proof (max_list_in' _ g l x Hx). lia. Qed.

Lemma left_by_0 : forall v i, sdepth v = O -> left_by i v = i.
Proof.
  induction v using tval_ind'; intros i D; try reflexivity; cbn [left_by sdepth] in *.
  - rewrite Forall_forall in H. apply fold_id. intros a x Hx. apply H; [exact Hx|].
    eapply max_list_0; eassumption.
  - rewrite Forall_forall in H. apply fold_id. intros a x Hx. apply H; [exact Hx|].
    eapply max_list_0; eassumption.
  - rewrite Forall_forall in H. apply fold_id. intros a x Hx. destruct (H x Hx) as [Hk Hv].
    pose proof (max_list_0 _ (fun kv => Nat.max (sdepth (fst kv)) (sdepth (snd kv))) l D x Hx).
    cbn beta in *. rewrite Hk, Hv by lia. reflexivity.
  - discriminate D.
Qed.
Lemma left_by_rng : forall v i, wf v -> in_s 16 i -> in_s 16 (left_by i v).
Proof.
  induction v using tval_ind'; intros i W I; try exact I; cbn [left_by wf] in *.
  - destruct W as (_ & _ & A). rewrite all_in in A. rewrite Forall_forall in H.
    apply (fold_inv _ _ _ (in_s 16)); [|exact I]. intros a x Hx Ia. apply H; auto. apply A, Hx.
  - destruct W as (_ & _ & A). rewrite all_in in A. rewrite Forall_forall in H.
    apply (fold_inv _ _ _ (in_s 16)); [|exact I]. intros a x Hx Ia. apply H; auto. apply A, Hx.
  - destruct W as (_ & _ & _ & A). rewrite all_in in A. rewrite Forall_forall in H.
    apply (fold_inv _ _ _ (in_s 16)); [|exact I]. intros a x Hx Ia. destruct (H x Hx) as [Hk Hv].
    destruct (A x Hx) as [[_ Wk] [_ Wv]]. auto.
  - rewrite all_in in W. rewrite Forall_forall in H.
    apply (fold_inv _ _ _ (in_s 16)); [|exact I]. intros a x Hx Ia. destruct (W x Hx).
    destruct (sdepth (snd x) =? 0)%nat; auto.
Qed.

(** The state after a value whose ids are kept. *)
Definition state_after (d : nat) (t i : Z) : Z * Z := (if (d =? 0)%nat then t else i, i).

Lemma thread_kept : forall A B (g : A -> Z * Z -> B * (Z * Z)) (u : A -> B) (d : A -> nat)
  (nx : Z -> A -> Z) l,
  (forall x t i, In x l -> g x (t, i) = (u x, state_after (d x) t (nx i x))) ->
  (forall x i, In x l -> d x = O -> nx i x = i) ->
  forall t i, thread g l (t, i) = (map u l, state_after (max_list (map d l)) t (fold_left nx l i)).
Proof.
  induction l as [|x l IH]; intros H D t i; [reflexivity|]. cbn [thread map fold_left].
  rewrite H by (left; reflexivity). unfold state_after at 1.
  rewrite (IH (fun x t i Hx => H x t i (or_intror Hx)) (fun x i Hx => D x i (or_intror Hx))).
  f_equal. unfold state_after. cbn [max_list fold_right map]. f_equal.
  fold (max_list (map d l)). destruct (Nat.eqb_spec (max_list (map d l)) 0) as [E|E].
  - rewrite E, Nat.max_0_r. destruct (d x =? 0)%nat eqn:Ex; [reflexivity|].
    symmetry. apply fold_id. intros a y Hy. apply D; [right; exact Hy|].
    eapply max_list_0; eassumption.
  - replace (Nat.max (d x) (max_list (map d l)) =? 0)%nat with false by lia. reflexivity.
Qed.

Definition kept_goal (v : tval) : Prop := forall t i,
  seen v (t, i) = (untyped_empty v, state_after (sdepth v) t (left_by i v)).

Definition left_fields (fs : list (Z * tval)) (t : Z) : Z :=
  fold_left (fun i f => if (sdepth (snd f) =? 0)%nat then i else left_by (fst f) (snd f)) fs t.
Lemma id_seen_kept : forall last b id, in_s 16 id ->
  (negb (short last id) || (b =? last)) = true -> id_seen last b id = id.
Proof.
  intros last b id I E. unfold id_seen. destruct (short last id); [|reflexivity].
  cbn in E. apply Z.eqb_eq in E. subst. replace (last + (id - last)) with id by lia.
  apply wraps_id; [lia|exact I].
Qed.
Lemma fields_kept_seen : forall fs,
  (forall x, In x fs -> in_s 16 (fst x) /\ (ids_kept (snd x) = true -> kept_goal (snd x))) ->
  forall last b t, fields_kept last b fs = true ->
  exists last' b', thread field_seen fs (last, (t, b)) =
    (map (fun x => (fst x, untyped_empty (snd x))) fs, (last', (left_fields fs t, b'))).
Proof.
  induction fs as [|[id v] fs IH]; intros H last b t K; [exists last, b; reflexivity|].
  cbn [fields_kept] in K. rewrite !andb_true_iff in K. destruct K as [[K1 K2] K3].
  destruct (H (id, v) (or_introl eq_refl)) as [I G]. cbn [fst snd] in *.
  cbn [thread]. unfold field_seen at 1. cbn [fst snd].
  rewrite (id_seen_kept _ _ _ I K1), (G K2). unfold state_after at 1.
  destruct (IH (fun x Hx => H x (or_intror Hx)) id (left_by id v)
              (if (sdepth v =? 0)%nat then t else left_by id v) K3) as (l' & b' & ->).
  exists l', b'. reflexivity.
Qed.
Lemma kept_seen : forall v, wf v -> ids_kept v = true -> kept_goal v.
Proof.
  induction v using tval_ind'; intros W K t i; try reflexivity.
  - rewrite seen_list. cbn [wf ids_kept untyped_empty sdepth left_by] in *.
    destruct W as (_ & _ & A). rewrite all_in in A. rewrite forallb_forall in K.
    rewrite Forall_forall in H.
    rewrite (thread_kept _ _ seen untyped_empty sdepth left_by); [reflexivity| |].
    + intros x t0 i0 Hx. apply H; auto. apply A, Hx.
    + intros. apply left_by_0. assumption.
  - rewrite seen_set. cbn [wf ids_kept untyped_empty sdepth left_by] in *.
    destruct W as (_ & _ & A). rewrite all_in in A. rewrite forallb_forall in K.
    rewrite Forall_forall in H.
    rewrite (thread_kept _ _ seen untyped_empty sdepth left_by); [reflexivity| |].
    + intros x t0 i0 Hx. apply H; auto. apply A, Hx.
    + intros. apply left_by_0. assumption.
  - destruct l as [|x l]; [reflexivity|]. rewrite seen_map. cbv zeta.
    change (untyped_empty (VMap kt vt (x :: l))) with
      (VMap kt vt (map (fun kv => (untyped_empty (fst kv), untyped_empty (snd kv))) (x :: l))).
    set (l0 := x :: l) in *. clearbody l0. clear x l.
    cbn [wf ids_kept sdepth left_by] in *.
    destruct W as (_ & _ & _ & A). rewrite all_in in A. rewrite forallb_forall in K.
    rewrite Forall_forall in H.
    rewrite (thread_kept _ _ pair_seen (fun kv => (untyped_empty (fst kv), untyped_empty (snd kv)))
               (fun kv => Nat.max (sdepth (fst kv)) (sdepth (snd kv)))
               (fun i kv => left_by (left_by i (fst kv)) (snd kv))); [reflexivity| |].
    + intros x t0 i0 Hx. destruct (H x Hx) as [Hk Hv]. destruct (A x Hx) as [[_ Wk] [_ Wv]].
      specialize (K x Hx). cbn beta in K. apply andb_true_iff in K. destruct K as [Kk Kv].
      unfold pair_seen. rewrite (Hk Wk Kk). unfold state_after at 1. rewrite (Hv Wv Kv).
      f_equal. unfold state_after. f_equal.
      destruct (Nat.eqb_spec (sdepth (snd x)) 0) as [E|E].
      * rewrite E, Nat.max_0_r. destruct (sdepth (fst x) =? 0)%nat; [reflexivity|].
        rewrite (left_by_0 (snd x)) by assumption. reflexivity.
      * replace (Nat.max (sdepth (fst x)) (sdepth (snd x)) =? 0)%nat with false by lia. reflexivity.
    + intros x i0 Hx D. rewrite !left_by_0 by lia. reflexivity.
  - rewrite seen_struct. cbv zeta. cbn [snd]. rewrite ids_kept_struct in K.
    cbn [wf] in W. rewrite all_in in W. rewrite Forall_forall in H.
    destruct (fields_kept_seen fs) with (last := 0) (b := 0) (t := i) as (l' & b' & ->).
    + intros x Hx. destruct (W x Hx). split; [assumption|]. intros. apply H; assumption.
    + exact K.
    + reflexivity.
Qed.

Lemma thread_same : forall A B (g : A -> Z * Z -> B * (Z * Z)) (u : A -> B) l,
  (forall x, In x l -> free g x) ->
  forall s, fst (thread g l s) = map u l -> forall x, In x l -> forall s', fst (g x s') = u x.
Proof.
  induction l as [|y l IH]; intros F s E x Hx s'; [destruct Hx|]. cbn [thread map] in E.
  destruct (g y s) as [b s1] eqn:Ey. destruct (thread g l s1) as [ys s2] eqn:El.
  cbn [fst] in E. injection E; intros E2 E1. destruct Hx as [<-|Hx].
  - destruct (F y (or_introl eq_refl) s' s) as [-> _]. rewrite Ey. exact E1.
  - apply (IH (fun x Hx => F x (or_intror Hx)) s1); [rewrite El; exact E2|exact Hx].
Qed.
Lemma same_kept_fields : forall fs,
  (forall x, In x fs -> in_s 16 (fst x) /\ wf (snd x) /\
     ((forall s, fst (seen (snd x) s) = untyped_empty (snd x)) -> ids_kept (snd x) = true)) ->
  forall last b t, in_s 16 last -> in_s 16 b ->
  fst (thread field_seen fs (last, (t, b))) = map (fun x => (fst x, untyped_empty (snd x))) fs ->
  fields_kept last b fs = true.
Proof.
  induction fs as [|[id v] fs IH]; intros H last b t Il Ib E; [reflexivity|].
  destruct (H (id, v) (or_introl eq_refl)) as (I & W & G). cbn [fst snd] in *.
  cbn [thread map fst snd] in E. unfold field_seen at 1 in E. cbn [fst snd] in E.
  destruct (seen v (t, id_seen last b id)) as [w s1] eqn:Ev.
  destruct (thread field_seen fs (id, s1)) as [ys s2] eqn:El. cbn [fst] in E.
  injection E; intros E3 E2 E1. cbn [fields_kept].
  assert (Kv : ids_kept v = true).
  { apply G. intros s. destruct (seen_free v s (t, id_seen last b id)) as [-> _]. rewrite Ev. exact E2. }
  rewrite Kv. pose proof (kept_seen v W Kv t (id_seen last b id)) as Es. rewrite Ev in Es.
  rewrite E1 in Es. injection Es; intros Hs1 _. rewrite andb_true_r.
  apply andb_true_iff. split.
  - unfold id_seen in E1. destruct (short last id) eqn:Sh; [|reflexivity]. cbn [negb orb].
    unfold short in Sh. apply Z.eqb_eq.
    pose proof (wraps_cong 16 (b + (id - last)) ltac:(lia)) as C. rewrite E1 in C.
    unfold in_s in *. change (2 ^ 16) with 65536 in *. change (2 ^ (16 - 1)) with 32768 in *. lia.
  - eapply (IH (fun x Hx => H x (or_intror Hx)) id _ (if (sdepth v =? 0)%nat then t else left_by id v));
      [exact I|apply left_by_rng; assumption|].
    unfold state_after in Hs1. rewrite <- Hs1, El. exact E3.
Qed.
Lemma same_kept : forall v, wf v -> (forall s, fst (seen v s) = untyped_empty v) -> ids_kept v = true.
Proof.
  induction v using tval_ind'; intros W E; try reflexivity.
  - cbn [wf ids_kept] in *. destruct W as (_ & _ & A). rewrite all_in in A.
    rewrite Forall_forall in H. apply forallb_forall. intros x Hx. apply H; [exact Hx|apply A, Hx|].
    intros s. specialize (E (0, 0)). rewrite seen_list in E. cbn [fst untyped_empty] in E.
    injection E; intros E'. eapply thread_same; [intros; apply seen_free|exact E'|exact Hx].
  - cbn [wf ids_kept] in *. destruct W as (_ & _ & A). rewrite all_in in A.
    rewrite Forall_forall in H. apply forallb_forall. intros x Hx. apply H; [exact Hx|apply A, Hx|].
    intros s. specialize (E (0, 0)). rewrite seen_set in E. cbn [fst untyped_empty] in E.
    injection E; intros E'. eapply thread_same; [intros; apply seen_free|exact E'|exact Hx].
  - destruct l as [|y l]; [reflexivity|]. specialize (E (0, 0)). rewrite seen_map in E.
    change (untyped_empty (VMap kt vt (y :: l))) with
      (VMap kt vt (map (fun kv => (untyped_empty (fst kv), untyped_empty (snd kv))) (y :: l))) in E.
    cbv zeta in E. set (l0 := y :: l) in *. clearbody l0. clear y l. cbn [fst] in E.
    injection E; intros E'. clear E.
    cbn [wf ids_kept] in *. destruct W as (_ & _ & _ & A). rewrite all_in in A.
    rewrite Forall_forall in H. apply forallb_forall. intros x Hx.
    destruct (H x Hx) as [Hk Hv]. destruct (A x Hx) as [[_ Wk] [_ Wv]].
    assert (P : forall s, fst (pair_seen x s) = (untyped_empty (fst x), untyped_empty (snd x))).
    { intros s. refine (thread_same _ _ pair_seen _ l0 _ _ E' x Hx s). intros z _ t1 t2. unfold pair_seen.
      destruct (seen_free (fst z) t1 t2) as [K1 K2].
      destruct (seen (fst z) t1) as [k1 u1], (seen (fst z) t2) as [k2 u2]. cbn [fst snd] in *. subst.
      destruct (seen_free (snd z) u1 u2) as [V1 V2].
      destruct (seen (snd z) u1) as [v1 w1], (seen (snd z) u2) as [v2 w2]. cbn [fst snd] in *. subst.
      auto. }
    apply andb_true_iff. split.
    + apply Hk; [exact Wk|]. intros s. specialize (P s). unfold pair_seen in P.
      destruct (seen (fst x) s) as [k1 u1]. destruct (seen (snd x) u1). cbn [fst] in *. congruence.
    + apply Hv; [exact Wv|]. intros s. specialize (P s). unfold pair_seen in P.
      destruct (seen (fst x) s) as [k1 u1].
      destruct (seen_free (snd x) s u1) as [-> _].
      destruct (seen (snd x) u1). cbn [fst] in *. congruence.
  - specialize (E (0, 0)). rewrite seen_struct in E. cbv zeta in E. cbn [fst snd untyped_empty] in E.
    injection E; intros E'. rewrite ids_kept_struct. cbn [wf] in W. rewrite all_in in W.
    rewrite Forall_forall in H.
    eapply same_kept_fields; [|unfold in_s; lia|unfold in_s; lia|exact E'].
    intros x Hx. destruct (W x Hx). split; [assumption|]. split; [assumption|]. intros. apply H; assumption.
Qed.
Theorem read_back_kept : forall v, wf v -> (read_back v = untyped_empty v <-> ids_kept v = true).
Proof.
  intros v W. split; intros H.
  - apply same_kept; [exact W|]. intros s. destruct (seen_free v s (0, 0)) as [-> _]. exact H.
  - unfold read_back. rewrite (kept_seen v W H). reflexivity.
Qed.
