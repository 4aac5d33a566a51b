(** Generated readers and writers against the specification of GenSpec, for any protocol. *)
From Coq Require Import ZArith List Bool Lia Permutation.
From Coq Require Import ZifyBool ZifyNat.
From Verif Require Import Base Errors Transport Proto Skip Arith Values SkipProofs BinaryProofs.
From Verif Require Import F64 Strconv TField GoVal Compare TList TSet TMap TFieldProofs Gen GenSpec.
Import ListNotations.
Open Scope Z_scope.
Ltac Zify.zify_post_hook ::= Z.div_mod_to_equations.

Scheme wireof_m := Minimality for wireof Sort Prop
  with wireofs_m := Minimality for wireofs Sort Prop
  with wireofm_m := Minimality for wireofm Sort Prop
  with wireoff_m := Minimality for wireoff Sort Prop.
Combined Scheme wireof_mut from wireof_m, wireofs_m, wireofm_m, wireoff_m.
Scheme reads_m := Minimality for reads Sort Prop
  with readss_m := Minimality for readss Sort Prop
  with readsm_m := Minimality for readsm Sort Prop
  with readsf_m := Minimality for readsf Sort Prop.
Combined Scheme reads_mut from reads_m, readss_m, readsm_m, readsf_m.

(** Fuel for the fields of a struct. *)
Definition fneed (fs : list (Z * tval)) : nat :=
  fold_right (fun f n => S (Nat.max (need (snd f)) n)) 1%nat fs.
Definition lneed (l : list tval) : nat := max_list (map need l).
Definition mneed (l : list (tval * tval)) : nat :=
  max_list (map (fun kv => Nat.max (need (fst kv)) (need (snd kv))) l).

Section Skips.
Context {St : Type}.
Variable R : rproto St.
Variable bin : bool.
Variable M : Z.

(** Skip passes over any value the reader is positioned on. *)
Lemma rd_skip_all :
  (forall v s s', rd bin R v s s' -> forall f d, (need v <= f)%nat ->
     skip R M f (vtype v) d s = Ok (None, s')) /\
  (forall l s s', rds bin R l s s' -> forall f d t, (lneed l <= f)%nat ->
     (forall v, In v l -> vtype v = t) ->
     repeat_ignoring (length l) (skip R M f t d) s = Ok s') /\
  (forall l s s', rdm bin R l s s' -> forall f d kt vt, (mneed l <= f)%nat ->
     (forall k v, In (k, v) l -> vtype k = kt /\ vtype v = vt) ->
     repeat_ignoring (length l) (fun s => '(_, s') <- skip R M f kt d s ;; skip R M f vt M s') s = Ok s') /\
  (forall fs s s', rdf bin R fs s s' ->
     forall f d, (fneed fs <= f)%nat -> skip_fields R M f d s = Ok s').
Proof.
  apply rd_mut.
  Ltac sc_case E :=
    let g := fresh "g" in intros;
    match goal with |- skip _ _ ?f0 _ ?d0 ?s0 = _ =>
      destruct f0 as [|g]; [cbn [need] in *; lia|];
      transitivity ('(_, e, s1) <- E s0 ;; Ok (e, s1)); [reflexivity|] end;
    match goal with H : E _ = _ |- _ => rewrite H end; reflexivity.
  - sc_case (rBool R).
  - sc_case (rByte R).
  - sc_case (rI16 R).
  - sc_case (rI32 R).
  - sc_case (rI64 R).
  - sc_case (rDouble R).
  - sc_case (rString R).
  - intros et l s s1 s2 s' H1 T H2 IH H3 f d Hf. destruct f as [|f]; [cbn [need] in Hf; lia|].
    cbn [vtype]. rewrite skip_list, H1. cbn [obind]. rewrite Nat2Z.id.
    rewrite IH; [exact H3|cbn [need] in Hf; unfold lneed; lia|exact T].
  - intros et l s s1 s2 s' H1 T H2 IH H3 f d Hf. destruct f as [|f]; [cbn [need] in Hf; lia|].
    cbn [vtype]. rewrite skip_set, H1. cbn [obind]. rewrite Nat2Z.id.
    rewrite IH; [exact H3|cbn [need] in Hf; unfold lneed; lia|exact T].
  - intros kt vt l s s1 s2 s' H1 T H2 IH H3 f d Hf. destruct f as [|f]; [cbn [need] in Hf; lia|].
    cbn [vtype]. rewrite skip_map, H1. cbn [obind]. rewrite Nat2Z.id.
    rewrite IH; [exact H3|cbn [need] in Hf; unfold mneed; lia|exact T].
  - intros nm fs s s1 s2 s' H1 H2 IH H3 f d Hf. destruct f as [|f]; [cbn [need] in Hf; lia|].
    cbn [vtype]. rewrite skip_struct, H1. cbn [obind].
    rewrite IH; [exact H3|cbn [need] in Hf; unfold fneed; lia].
  - intros. reflexivity.
  - intros v l s s1 s' H1 IH1 H2 IH2 f d t Hf T. cbn [length repeat_ignoring].
    unfold lneed in *. cbn [map max_list fold_right] in Hf. fold (max_list (map need l)) in Hf.
    rewrite <- (T v (or_introl eq_refl)) at 1. rewrite IH1 by lia. cbn [obind].
    apply IH2; [lia|]. intros u Hu. apply T. right. exact Hu.
  - intros. reflexivity.
  - intros k v l s s1 s2 s' H1 IH1 H2 IH2 H3 IH3 f d kt vt Hf T. cbn [length repeat_ignoring].
    unfold mneed in *. cbn [map max_list fold_right fst snd] in Hf.
    match type of Hf with context [fold_right Nat.max 0%nat ?X] => fold (max_list X) in Hf end.
    destruct (T k v (or_introl eq_refl)) as [Tk Tv].
    rewrite <- Tk at 1. rewrite IH1 by lia. cbn [obind].
    rewrite <- Tv at 1. rewrite IH2 by lia. cbn [obind].
    apply IH3; [lia|]. intros a b Hu. apply T. right. exact Hu.
  - intros id s s' H f d Hf. destruct f as [|f]; [cbn in Hf; lia|].
    rewrite skip_fields_S, H. reflexivity.
  - intros id v fs s s1 s2 s3 s' H1 H2 IH2 H3 H4 IH4 f d Hf. destruct f as [|f]; [cbn in Hf; lia|].
    cbn [fneed fold_right snd] in Hf. fold (fneed fs) in Hf.
    rewrite skip_fields_S, H1. cbn [obind].
    replace (vtype v =? STOP) with false by (symmetry; apply Z.eqb_neq, wire_not_stop).
    rewrite IH2 by lia. cbn [obind]. rewrite H3. cbn [obind]. apply IH4. lia.
Qed.
End Skips.

(** ** Reading *)

(** No binary anywhere in the type. *)
Inductive no_binary : ty -> Prop :=
| nb_bool : no_binary TyBool | nb_byte : no_binary TyByte | nb_i16 : no_binary TyI16
| nb_i32 : no_binary TyI32 | nb_i64 : no_binary TyI64 | nb_double : no_binary TyDouble
| nb_string : no_binary TyString
| nb_enum tag n cs : no_binary (TyEnum tag n cs)
| nb_list t : no_binary t -> no_binary (TyList t)
| nb_set t : no_binary t -> no_binary (TySet t)
| nb_map k v : no_binary k -> no_binary v -> no_binary (TyMap k v)
| nb_struct name ms : (forall m, In m ms -> no_binary (m_ty m)) -> no_binary (TyStruct name ms).

Section Reads.
Context {St : Type}.
Variable R : rproto St.
Variable bin : bool.
Variable x : ext.
Variable M : Z.
Variable cf : nat.

Lemma hl : forall A B (m : rop St A) (k : A -> hop St B) s a s1,
  m s = Ok (a, None, s1) -> hbind (hwrap (hlift m)) k s = k a s1.
Proof. intros A B m k s a s1 H. unfold hbind, hwrap, hlift. rewrite H. reflexivity. Qed.
Lemma hde : forall B (m : wop St) (k : unit -> hop St B) s s1,
  m s = Ok (None, s1) -> hbind (hwrap (hdo m)) k s = k tt s1.
Proof. intros B m k s s1 H. unfold hbind, hwrap, hdo. rewrite H. reflexivity. Qed.
Lemma hb : forall A B (m : hop St A) (k : A -> hop St B) s a s1,
  m s = Ok (inl a, s1) -> hbind m k s = k a s1.
Proof. intros A B m k s a s1 H. unfold hbind. rewrite H. reflexivity. Qed.
Lemma hwb : forall A B (m : hop St A) (k : A -> hop St B) s a s1,
  m s = Ok (inl a, s1) -> hbind (hwrap m) k s = k a s1.
Proof. intros A B m k s a s1 H. unfold hbind, hwrap. rewrite H. reflexivity. Qed.

Lemma fields_map : forall ms, map f_id (fields_of ms) = map m_id ms /\
  map f_name (fields_of ms) = map m_name ms.
Proof.
  intros ms. unfold fields_of. rewrite !map_map. split; apply map_ext; intros []; reflexivity.
Qed.

(** The dispatch of the field loop: by id when there is a member with it, to Skip otherwise. *)
Lemma dispatch_known : forall ms m, members_ok ms -> In m ms ->
  find (fun m' => (m_id m =? m_id m') ||
                  str_eq (FieldNameFromFieldId (fc_of ms) (m_id m)) (m_name m')) ms = Some m.
Proof.
  intros ms m (Ni & Nn & H) Hin. destruct (fields_map ms) as [Ei En].
  assert (E : FieldNameFromFieldId (fc_of ms) (m_id m) = m_name m).
  { destruct (lookups 0 (fields_of ms)) as [L _]; [rewrite Ei; assumption|rewrite En; assumption|].
    destruct (L (F (m_name m) (type_to_enum (m_ty m)) (m_id m))) as (_ & _ & X & _).
    - unfold fields_of. apply in_map_iff. eauto.
    - exact X. }
  rewrite E. clear E Ei En H.
  induction ms as [|m' ms IH]; [destruct Hin|]. cbn [find map] in *.
  inversion Ni; inversion Nn; subst. destruct Hin as [->|Hin].
  - rewrite Z.eqb_refl. reflexivity.
  - replace (m_id m =? m_id m') with false.
    2:{ symmetry. apply Z.eqb_neq. intro E. apply H1. rewrite <- E. apply in_map, Hin. }
    replace (str_eq (m_name m) (m_name m')) with false; [cbn [orb]; auto|].
    symmetry. apply Bool.not_true_is_false. intro E. apply str_eq_iff in E.
    apply H5. rewrite <- E. apply in_map, Hin.
Qed.
Lemma dispatch_none : forall ms id, (forall m, In m ms -> m_id m <> id) ->
  (forall m, In m ms -> m_name m <> []) ->
  find (fun m' => (id =? m_id m') || str_eq [] (m_name m')) ms = None.
Proof.
  induction ms as [|m ms IH]; intros id H N; [reflexivity|]. cbn [find].
  replace (id =? m_id m) with false.
  2:{ symmetry. apply Z.eqb_neq. intro E. apply (H m (or_introl eq_refl)). congruence. }
  pose proof (N m (or_introl eq_refl)). destruct (m_name m) as [|]; [congruence|]. cbn [orb str_eq].
  apply IH; intros; [apply H|apply N]; right; assumption.
Qed.
Lemma unknown_name : forall ms id, members_ok ms -> (forall m, In m ms -> m_id m <> id) ->
  FieldNameFromFieldId (fc_of ms) id = [].
Proof.
  intros ms id (Ni & Nn & H) Hn. destruct (fields_map ms) as [Ei En].
  destruct (lookups 0 (fields_of ms)) as (_ & L & _); [rewrite Ei; assumption|rewrite En; assumption|].
  apply L. rewrite Ei, in_map_iff. intros (m & E & Hm). exact (Hn m Hm E).
Qed.
Lemma no_name : forall ms, members_ok ms -> FieldIdFromFieldName (fc_of ms) [] = -1.
Proof.
  intros ms (Ni & Nn & H). destruct (fields_map ms) as [Ei En].
  destruct (lookups 0 (fields_of ms)) as (_ & _ & L & _); [rewrite Ei; assumption|rewrite En; assumption|].
  apply L. rewrite En, in_map_iff. intros (m & E & Hm). apply H in Hm. tauto.
Qed.

Lemma gread_fields_S : forall f ms attrs,
  gread_fields R x M cf (S f) ms attrs =
    ('(fieldName, fieldTypeId, fieldId) <-- hwrap (hlift (rFieldBegin R)) ;;
    let id := if fieldId <? 0 then wraps 16 (FieldIdFromFieldName (fc_of ms) fieldName) else fieldId in
    let name := if fieldId <? 0 then fieldName
                else match fieldName with
                     | [] => FieldNameFromFieldId (fc_of ms) fieldId
                     | _ => fieldName
                     end in
    let tid := if fieldTypeId =? GENERIC then f_type (FieldFromFieldId (fc_of ms) id) else fieldTypeId in
    if tid =? STOP then hret attrs
    else
      attrs' <--
        match find (fun m => (id =? m_id m) || str_eq name (m_name m)) ms with
        | Some m =>
          if negb (tid =? ThriftTypeId (type_to_enum (m_ty m))) && (tid =? VOID)
          then _ <-- hwrap (hdo (skip_default R M f tid)) ;; hret attrs
          else v <-- hwrap (gread R x M cf f (m_ty m)) ;; hret (attr_set attrs (m_id m) v)
        | None => _ <-- hwrap (hdo (skip_default R M f tid)) ;; hret attrs
        end ;;
      _ <-- hwrap (hdo (rFieldEnd R)) ;;
      gread_fields R x M cf f ms attrs').
Proof. reflexivity. Qed.

Lemma vtype_not : forall v, (vtype v =? GENERIC) = false /\ (vtype v =? STOP) = false /\
  (vtype v =? VOID) = false.
Proof. destruct v; repeat split; reflexivity. Qed.

(** A generated reader positioned on [w] builds what the specification says. *)
Lemma rd_gread_all :
  (forall t w v, reads x cf t w v -> schema_ok t -> (bin = false -> no_binary t) ->
     forall f s s', rd bin R w s s' -> (need w <= f)%nat ->
     gread R x M cf f t s = Ok (inl v, s')) /\
  (forall t ws vs, readss x cf t ws vs -> schema_ok t -> (bin = false -> no_binary t) ->
     forall f s s', rds bin R ws s s' ->
     (lneed ws <= f)%nat -> forall A (put : A -> any -> outcome A) p q, fills put p vs = Ok q ->
     gfill (length ws) (gread R x M cf f t) put p s = Ok (inl q, s')) /\
  (forall k v ws vs, readsm x cf k v ws vs -> schema_ok k -> schema_ok v ->
     (bin = false -> no_binary k) -> (bin = false -> no_binary v) -> forall f s s', rdm bin R ws s s' ->
     (mneed ws <= f)%nat -> forall A (put : A -> any * any -> outcome A) p q, fills put p vs = Ok q ->
     gfill (length ws) (a <-- gread R x M cf f k ;; b <-- gread R x M cf f v ;; hret (a, b)) put p s
       = Ok (inl q, s')) /\
  (forall ms attrs fs attrs', readsf x cf ms attrs fs attrs' -> members_ok ms ->
     (forall m, In m ms -> schema_ok (m_ty m)) ->
     (bin = false -> forall m, In m ms -> no_binary (m_ty m)) -> forall f s s', rdf bin R fs s s' ->
     (fneed fs <= f)%nat -> gread_fields R x M cf f ms attrs s = Ok (inl attrs', s')).
Proof.
  apply reads_mut.
  Ltac rsc E C := intros;
    match goal with H : rd _ _ _ _ _ |- gread _ _ _ _ ?f0 ?t0 ?s0 = _ =>
      let g := fresh "g" in
      destruct f0 as [|g]; [cbn [need] in *; lia|];
      inversion H; subst;
      transitivity ((v <-- hwrap (hlift E) ;; hret (C v)) s0); [reflexivity|];
      match goal with X : E _ = _ |- _ => rewrite (hl _ _ _ _ _ _ _ X) end; reflexivity
    end.
  - rsc (rBool R) ABool.
  - rsc (rByte R) AByte.
  - rsc (rI16 R) AInt16.
  - rsc (rI32 R) AInt32.
  - rsc (rI64 R) AInt64.
  - rsc (rDouble R) AF64.
  - rsc (rString R) AStr.
  - intros s So Nb f st st' H Hn. destruct f as [|g]; [cbn [need] in *; lia|]. inversion H; subst.
    transitivity ((v <-- hwrap (hlift (rBinary R)) ;; hret (ABytes v)) st); [reflexivity|].
    assert (B : bin = true) by (destruct bin; [reflexivity|]; specialize (Nb eq_refl); inversion Nb).
    match goal with X : bin = true -> _ |- _ => rewrite (hl _ _ _ _ _ _ _ (X B)) end. reflexivity.
  - intros tag n cs z _ _ f s s' H Hn. inversion H; subst. destruct f as [|f]; [cbn in *; lia|].
    change ((v <-- hwrap (hlift (rI32 R)) ;; hret (mk_enum tag n cs v)) s =
      Ok (inl (mk_enum tag n cs z), s')).
    match goal with X : rI32 R _ = _ |- _ => rewrite (hl _ _ _ _ _ _ _ X) end. reflexivity.
  - intros t et ws vs p H IH Hp So Nb f s s' Hr Hn. destruct f as [|f]; [cbn in *; lia|].
    inversion So; inversion Hr; subst. cbn [need] in Hn.
    assert (Nt : bin = false -> no_binary t) by (intros B; specialize (Nb B); inversion Nb; assumption).
    change (('(t0, n) <-- hwrap (hlift (rListBegin R)) ;;
      l <-- gfill (Z.to_nat n) (gread R x M cf f t) (tl_Push x) (NewTList t0 n) ;;
      _ <-- hwrap (hdo (rListEnd R)) ;; hret (AList 0 (tl_et l) (tl_l l))) s =
      Ok (inl (AList 0 (tl_et p) (tl_l p)), s')).
    erewrite hl by eassumption. cbn beta iota. rewrite Nat2Z.id.
    erewrite hb by (eapply IH; [assumption|exact Nt|eassumption|unfold lneed; lia|exact Hp]).
    erewrite hde by eassumption. reflexivity.
  - intros t et ws vs p H IH Hp So Nb f s s' Hr Hn. destruct f as [|f]; [cbn in *; lia|].
    inversion So; inversion Hr; subst. cbn [need] in Hn.
    assert (Nt : bin = false -> no_binary t) by (intros B; specialize (Nb B); inversion Nb; assumption).
    change (('(t0, n) <-- hwrap (hlift (rSetBegin R)) ;;
      l <-- gfill (Z.to_nat n) (gread R x M cf f t) (ts_Add x cf) (NewTSet t0 n) ;;
      _ <-- hwrap (hdo (rSetEnd R)) ;; hret (ASet 0 (ts_et l) (ts_size l) (ts_l l))) s =
      Ok (inl (ASet 0 (ts_et p) (ts_size p) (ts_l p)), s')).
    erewrite hl by eassumption. cbn beta iota. rewrite Nat2Z.id.
    erewrite hb by (eapply IH; [assumption|exact Nt|eassumption|unfold lneed; lia|exact Hp]).
    erewrite hde by eassumption. reflexivity.
  - intros k v kt vt ws kvs p H IH Hp So Nb f s s' Hr Hn. destruct f as [|f]; [cbn in *; lia|].
    inversion So; inversion Hr; subst. cbn [need] in Hn.
    assert (Nk : bin = false -> no_binary k) by (intros B; specialize (Nb B); inversion Nb; assumption).
    assert (Nv : bin = false -> no_binary v) by (intros B; specialize (Nb B); inversion Nb; assumption).
    change (('(kt, vt, n) <-- hwrap (hlift (rMapBegin R)) ;;
      l <-- gfill (Z.to_nat n) (a <-- gread R x M cf f k ;; b <-- gread R x M cf f v ;; hret (a, b))
              (fun p kv => tm_Set x cf p (fst kv) (snd kv)) (NewTMap kt vt n) ;;
      _ <-- hwrap (hdo (rMapEnd R)) ;;
      hret (AMap 0 (tm_kt l) (tm_vt l) (tm_size l) (tm_l l) (tm_b l))) s =
      Ok (inl (AMap 0 (tm_kt p) (tm_vt p) (tm_size p) (tm_l p) (tm_b p)), s')).
    erewrite hl by eassumption. cbn beta iota. rewrite Nat2Z.id.
    erewrite hb by (eapply IH; [assumption|assumption|exact Nk|exact Nv|eassumption|unfold mneed; lia|exact Hp]).
    erewrite hde by eassumption. reflexivity.
  - intros name ms fs attrs H IH So Nb f s s' Hr Hn. destruct f as [|f]; [cbn in *; lia|].
    inversion So; inversion Hr; subst. cbn [need] in Hn.
    assert (Nm : bin = false -> forall m, In m ms -> no_binary (m_ty m)) by (intros B; specialize (Nb B); inversion Nb; assumption).
    change ((_ <-- hwrap (hlift (rStructBegin R)) ;;
      attrs <-- gread_fields R x M cf f ms (map (fun m => (m_id m, m_init m)) ms) ;;
      _ <-- hwrap (hdo (rStructEnd R)) ;;
      hret (AStruct 0 name (fc_of ms) attrs)) s = Ok (inl (AStruct 0 name (fc_of ms) attrs), s')).
    erewrite hl by eassumption.
    erewrite hb by (eapply IH; [assumption|assumption|exact Nm|eassumption|unfold fneed; lia]).
    erewrite hde by eassumption. reflexivity.
  - intros t _ _ f s s' Hr _ A put p q Hp. inversion Hr; subst. cbn in Hp. injection Hp as <-. reflexivity.
  - intros t w v ws vs H1 IH1 H2 IH2 So Nb f s s' Hr Hn A put p q Hp. inversion Hr; subst.
    cbn [fills] in Hp. destruct (put p v) as [q1| |] eqn:E; cbn [obind] in Hp; try discriminate.
    unfold lneed in *. cbn [map max_list fold_right] in Hn. fold (max_list (map need ws)) in Hn.
    cbn [length gfill]. erewrite hb by (eapply IH1; [assumption|assumption|eassumption|lia]).
    erewrite hb by (unfold hout; rewrite E; reflexivity).
    eapply IH2; [assumption|assumption|eassumption|lia|exact Hp].
  - intros k v _ _ _ _ f s s' Hr _ A put p q Hp. inversion Hr; subst. cbn in Hp. injection Hp as <-. reflexivity.
  - intros k v wa wb a b ws vs H1 IH1 H2 IH2 H3 IH3 So1 So2 Nb1 Nb2 f s s' Hr Hn A put p q Hp. inversion Hr; subst.
    cbn [fills] in Hp. destruct (put p (a, b)) as [q1| |] eqn:E; cbn [obind] in Hp; try discriminate.
    unfold mneed in *. cbn [map max_list fold_right fst snd] in Hn.
    match type of Hn with context [fold_right Nat.max 0%nat ?X] => fold (max_list X) in Hn end.
    cbn [length gfill]. erewrite hb.
    2:{ erewrite hb by (eapply IH1; [assumption|assumption|eassumption|lia]).
        erewrite hb by (eapply IH2; [assumption|assumption|eassumption|lia]). reflexivity. }
    erewrite hb by (unfold hout; rewrite E; reflexivity).
    eapply IH3; [assumption|assumption|assumption|assumption|eassumption|lia|exact Hp].
  - intros ms attrs Mo _ _ f s s' Hr Hn. inversion Hr; subst. destruct f as [|f]; [cbn in Hn; lia|].
    rewrite gread_fields_S. erewrite hl by eassumption. reflexivity.
  - intros ms attrs id w fs m v attrs' Hin Hid H1 IH1 H2 IH2 Mo So Nb f s s' Hr Hn.
    inversion Hr; subst. destruct f as [|f]; [cbn in Hn; lia|].
    cbn [fneed fold_right snd] in Hn. fold (fneed fs) in Hn.
    rewrite gread_fields_S. erewrite hl by eassumption. cbn beta iota zeta.
    destruct (vtype_not w) as (-> & -> & Ev). cbn iota.
    destruct Mo as (Ni & Nn & Hm). assert (Mo : members_ok ms) by (repeat split; auto; apply Hm; auto).
    replace (m_id m <? 0) with false by (symmetry; apply Z.ltb_ge, Hm, Hin). cbn iota.
    rewrite (dispatch_known ms m Mo Hin). rewrite Ev, andb_false_r.
    erewrite hb.
    2:{ erewrite hwb by (eapply IH1; [apply So, Hin|intros Bn; exact (Nb Bn m Hin)|eassumption|lia]). reflexivity. }
    erewrite hde by eassumption. eapply IH2; [assumption|assumption|assumption|eassumption|lia].
  - intros ms attrs id w fs attrs' Hout H2 IH2 Mo So Nb f s s' Hr Hn.
    inversion Hr; subst. destruct f as [|f]; [cbn in Hn; lia|].
    cbn [fneed fold_right snd] in Hn. fold (fneed fs) in Hn.
    rewrite gread_fields_S. erewrite hl by eassumption. cbn beta iota zeta.
    destruct (vtype_not w) as (-> & -> & Ev). cbn iota.
    assert (F : find (fun m => ((if id <? 0 then wraps 16 (FieldIdFromFieldName (fc_of ms) []) else id) =? m_id m)
              || str_eq (if id <? 0 then [] else FieldNameFromFieldId (fc_of ms) id) (m_name m)) ms = None).
    { assert (N : forall m, In m ms -> m_name m <> []) by (intros m Hm; apply Mo; auto).
      destruct (id <? 0) eqn:Ei; [rewrite no_name by assumption|rewrite unknown_name by assumption];
        (apply dispatch_none; [|exact N]); [|exact Hout].
      intros m Hm E. destruct Mo as (_ & _ & Hb). apply Hb in Hm. vm_compute (wraps 16 (-1)) in E. lia. }
    rewrite F. erewrite hb.
    2:{ erewrite hde; [reflexivity|]. unfold skip_default. eapply (proj1 (rd_skip_all R bin M)); [eassumption|lia]. }
    erewrite hde by eassumption. eapply IH2; [assumption|assumption|assumption|eassumption|lia].
Qed.
End Reads.

(** ** Writing *)

Lemma in_insert_m : forall m n l, In m (insert_m n l) <-> m = n \/ In m l.
Proof.
  intros m n l. induction l as [|a l IH]; cbn [insert_m].
  - cbn. intuition congruence.
  - destruct (m_id n <? m_id a); cbn [In]; [intuition congruence|]. rewrite IH. intuition congruence.
Qed.
Lemma in_sorted : forall m ms, In m (sorted_members ms) <-> In m ms.
Proof.
  intros m ms. induction ms as [|n ms IH]; cbn [sorted_members]; [tauto|].
  rewrite in_insert_m, IH. cbn [In]. intuition congruence.
Qed.

Section Writes.
Context {St : Type}.
Variable W : wproto St.
Variable x : ext.
Variable bin : bool.

Lemma ww : forall (m : wop St) s s1, m s = Ok (None, s1) -> wwrap m s = Ok (None, s1).
Proof. intros m s s1 H. unfold wwrap. rewrite H. reflexivity. Qed.
Lemma wq : forall (a b : wop St) s s1, a s = Ok (None, s1) -> (a >>> b) s = b s1.
Proof. intros a b s s1 H. unfold wseq. rewrite H. reflexivity. Qed.

Lemma vtype_wt : forall t v w, wireof x t v w -> vtype w = wt_of t.
Proof. intros t v w H. inversion H; subst; reflexivity. Qed.
Lemma same_header : forall t, (bin = false -> no_binary t) -> same_type bin (type_to_enum t) (wt_of t).
Proof.
  intros t H. unfold same_type. destruct t; try (left; reflexivity).
  destruct bin; [right; auto|]. specialize (H eq_refl). inversion H.
Qed.

Lemma wr_gwrite_all :
  (forall t v w, wireof x t v w -> (bin = false -> no_binary t) ->
     forall f s s', wr bin W w s s' -> (need w <= f)%nat -> gwrite W x f t v s = Ok (None, s')) /\
  (forall t l ws, wireofs x t l ws -> (bin = false -> no_binary t) ->
     forall f s s', wrs bin W ws s s' -> (lneed ws <= f)%nat ->
     wseqs (map (gwrite W x f t) l) s = Ok (None, s') /\ length ws = length l) /\
  (forall k v l ws, wireofm x k v l ws -> (bin = false -> no_binary k) -> (bin = false -> no_binary v) ->
     forall f s s', wrm bin W ws s s' -> (mneed ws <= f)%nat ->
     wseqs (map (fun kv => gwrite W x f k (fst kv) >>> gwrite W x f v (snd kv)) l) s = Ok (None, s') /\
     length ws = length l) /\
  (forall attrs ms fs, wireoff x attrs ms fs -> (bin = false -> forall m, In m ms -> no_binary (m_ty m)) ->
     forall f s s', wrf bin W fs s s' -> (fneed fs <= f)%nat ->
     wseqs (map (fun m => gwrite_field W x f m (attribute attrs (m_id m))) ms) s = Ok (None, s')).
Proof.
  apply wireof_mut.
  Ltac wsc E := intros;
    match goal with H : wr _ _ _ _ _ |- gwrite _ _ ?f0 _ _ ?s0 = _ =>
      let g := fresh "g" in
      destruct f0 as [|g]; [cbn [need] in *; lia|];
      inversion H; subst;
      transitivity (wwrap E s0); [reflexivity|]; apply ww; assumption
    end.
  - intros b _. wsc (wBool W b).
  - intros z _ _. wsc (wByte W z).
  - intros z _ _. wsc (wI16 W z).
  - intros z _ _. wsc (wI32 W z).
  - intros z _ _. wsc (wI64 W z).
  - intros z _ _. wsc (wDouble W z).
  - intros b _ _ _. wsc (wString W b).
  - intros b _ _ Nb f s s' H Hn. destruct f as [|g]; [cbn [need] in *; lia|]. inversion H; subst.
    transitivity (wwrap (wBinary W b) s); [reflexivity|]. apply ww.
    assert (B : bin = true) by (destruct bin; [reflexivity|]; specialize (Nb eq_refl); inversion Nb). auto.
  - intros tag n cs z Hz _ f s s' H Hn. destruct f as [|f]; [cbn in Hn; lia|]. inversion H; subst.
    transitivity ((if tag =? tag then wwrap (wI32 W (wraps 32 z)) else panic_w) s); [reflexivity|].
    rewrite Z.eqb_refl, wraps_id by (auto; lia). apply ww. assumption.
  - intros t a et l ws Hl H IH Hb f s s' Hr Hn. destruct f as [|f]; [cbn in Hn; lia|].
    inversion Hr; subst. cbn [need] in Hn.
    assert (Nb : bin = false -> no_binary t) by (intros B; specialize (Hb B); inversion Hb; assumption).
    match goal with X : wrs _ _ _ _ _ |- _ => destruct (IH Nb f _ _ X) as [E L]; [unfold lneed; lia|] end.
    transitivity ((wwrap (wListBegin W (type_to_enum t) (Z.of_nat (length l))) >>>
      wseqs (map (gwrite W x f t) l) >>> wwrap (wListEnd W)) s); [reflexivity|].
    rewrite <- L. match goal with X : forall t, same_type _ _ _ -> _ |- _ =>
      erewrite wq by (apply ww, X; apply same_header; assumption) end.
    erewrite wq by exact E. apply ww. assumption.
  - intros t a et size l ws Hsz Hl H IH Hb f s s' Hr Hn. destruct f as [|f]; [cbn in Hn; lia|].
    inversion Hr; subst. cbn [need] in Hn.
    assert (Nb : bin = false -> no_binary t) by (intros B; specialize (Hb B); inversion Hb; assumption).
    match goal with X : wrs _ _ _ _ _ |- _ => destruct (IH Nb f _ _ X) as [E L]; [unfold lneed; lia|] end.
    transitivity ((wwrap (wSetBegin W (type_to_enum t) (set_Len size l)) >>>
      wseqs (map (gwrite W x f t) l) >>> wwrap (wSetEnd W)) s); [reflexivity|].
    assert (SL : set_Len size l = Z.of_nat (length ws)).
    { rewrite L. unfold set_Len. destruct l; [|reflexivity]. destruct Hsz; [congruence|assumption]. }
    rewrite SL. match goal with X : forall t, same_type _ _ _ -> _ |- _ =>
      erewrite wq by (apply ww, X; apply same_header; assumption) end.
    erewrite wq by exact E. apply ww. assumption.
  - intros k v a kt vt size l b es ws He Hm Hl H IH Hb f s s' Hr Hn. destruct f as [|f]; [cbn in Hn; lia|].
    inversion Hr; subst. cbn [need] in Hn.
    assert (Nk : bin = false -> no_binary k) by (intros B; specialize (Hb B); inversion Hb; assumption).
    assert (Nv : bin = false -> no_binary v) by (intros B; specialize (Hb B); inversion Hb; assumption).
    transitivity ((wwrap (wMapBegin W (type_to_enum k) (type_to_enum v) (map_Len kt size l b)) >>>
      (fun s => es <- map_entries x (2 * a) kt l b ;;
                wseqs (map (fun kv => gwrite W x f k (fst kv) >>> gwrite W x f v (snd kv)) es) s) >>>
      wwrap (wMapEnd W)) s); [reflexivity|].
    match goal with X : wrm _ _ _ _ _ |- _ => destruct (IH Nk Nv f _ _ X) as [E L]; [unfold mneed; lia|] end.
    rewrite Hm, <- L.
    match goal with X : forall t u, same_type _ _ _ -> _ |- _ =>
      erewrite wq by (apply ww, X; apply same_header; assumption) end.
    erewrite wq by (rewrite He; exact E). apply ww. assumption.
  - intros name ms a fc attrs fs H IH Hb f s s' Hr Hn. destruct f as [|f]; [cbn in Hn; lia|].
    inversion Hr; subst. cbn [need] in Hn.
    transitivity ((if str_eq name name then
        wwrap (wStructBegin W name) >>>
        wseqs (map (fun m => gwrite_field W x f m (attribute attrs (m_id m))) (sorted_members ms)) >>>
        wwrap (wFieldStop W) >>> wwrap (wStructEnd W)
      else panic_w) s); [reflexivity|]. rewrite str_eq_refl.
    match goal with X : forall nm, wStructBegin _ _ _ = _ |- _ => erewrite wq by (apply ww, X) end.
    erewrite wq.
    2:{ eapply IH; [|eassumption|unfold fneed; lia].
        intros B m Hm. specialize (Hb B). inversion Hb; subst.
        match goal with X : forall m, In m ms -> no_binary _ |- _ => apply X end. apply in_sorted, Hm. }
    erewrite wq by (apply ww; eassumption). apply ww. assumption.
  - intros t _ f s s' Hr _. inversion Hr; subst. split; reflexivity.
  - intros t v w l ws0 H1 IH1 H2 IH2 Hb f s s' Hr Hn. inversion Hr; subst.
    unfold lneed in *. cbn [map max_list fold_right] in Hn. fold (max_list (map need ws0)) in Hn.
    match goal with X : wrs _ _ _ _ _ |- _ => destruct (IH2 Hb f _ _ X) as [E L]; [lia|] end.
    split; [|cbn; congruence]. cbn [map wseqs]. erewrite wq; [exact E|]. eapply IH1; [assumption|eassumption|lia].
  - intros k v _ _ f s s' Hr _. inversion Hr; subst. split; reflexivity.
  - intros k v a b wa wb l ws0 H1 IH1 H2 IH2 H3 IH3 Hk Hv f s s' Hr Hn. inversion Hr; subst.
    unfold mneed in *. cbn [map max_list fold_right fst snd] in Hn.
    match type of Hn with context [fold_right Nat.max 0%nat ?X] => fold (max_list X) in Hn end.
    match goal with X : wrm _ _ _ _ _ |- _ => destruct (IH3 Hk Hv f _ _ X) as [E L]; [lia|] end.
    split; [|cbn; congruence]. cbn [map wseqs fst snd]. erewrite wq; [exact E|].
    erewrite wq by (eapply IH1; [assumption|eassumption|lia]). eapply IH2; [assumption|eassumption|lia].
  - intros attrs _ f s s' Hr _. inversion Hr; subst. reflexivity.
  - intros attrs m ms fs Ng H IH Hb f s s' Hr Hn. cbn [map wseqs].
    erewrite wq.
    + eapply IH; [|eassumption|assumption]. intros B m' Hm. apply Hb; [assumption|right; assumption].
    + destruct f as [|f]; [destruct fs; cbn in Hn; lia|]. cbn [gwrite_field]. rewrite Ng. reflexivity.
  - intros attrs m ms w fs Ng Hid H IH H2 IH2 Hb f s s' Hr Hn. inversion Hr; subst.
    cbn [fneed fold_right snd] in Hn. fold (fneed fs) in Hn. cbn [map wseqs].
    assert (Nb : bin = false -> no_binary (m_ty m)) by (intros B; apply Hb; [assumption|left; reflexivity]).
    erewrite wq.
    + eapply IH2; [|eassumption|lia]. intros B m' Hm. apply Hb; [assumption|right; assumption].
    + destruct f as [|f]; [lia|].
      transitivity ((wwrap (wFieldBegin W (m_name m) (type_to_enum (m_ty m)) (m_id m)) >>>
        wwrap (gwrite W x f (m_ty m) (attribute attrs (m_id m))) >>> wwrap (wFieldEnd W)) s).
      { cbn [gwrite_field]. rewrite Ng. reflexivity. }
      match goal with X : forall nm t, same_type _ _ _ -> _ |- _ =>
        erewrite wq by (apply ww, X; rewrite (vtype_wt _ _ _ H); apply same_header, Nb) end.
      erewrite wq by (apply ww; eapply IH; [assumption|eassumption|lia]). apply ww. assumption.
Qed.
End Writes.
