(** Comparison of generated structs: the methods of t_go_generator.cc:856-1040 and those they
    have from the embedded thrift.TStruct. *)
From Coq Require Import ZArith List Bool Lia.
From Coq Require Import ZifyBool ZifyNat.
From Verif Require Import Base Arith F64 Strconv TField GoVal Compare CompareProofs TFieldProofs TList TSet TMap.
From Verif Require Import Values Gen GenSpec.
Import ListNotations.
Open Scope Z_scope.

(** ** Model *)

(** CompareTo of the generated type of the struct [name], t_go_generator.cc:987-998.  The type
    assertion other.( *X ) is a test on the thrift name: structs of the same name in different
    packages are not told apart.  Nil pointers of type *X are not modelled. *)
Definition gs_CompareTo (x : ext) (fuel : nat) (name : bytes) (p other : any) : outcome (Z * bool) :=
  match other with
  | ANil => Ok (1, true)
  | AStruct _ n _ _ => if str_eq n name then Compare x fuel STRUCT p other else Ok (0, false)
  | _ => Ok (0, false)
  end.

(** AttributeByFieldId, t_go_generator.cc:1002-1022: the switch over the members, in order. *)
Fixpoint gs_switch (ms : list member) (attrs : list (Z * any)) (id : Z) : any :=
  match ms with
  | [] => ANil
  | m :: ms' => if id =? m_id m then attribute attrs (m_id m) else gs_switch ms' attrs id
  end.
Definition gs_AttributeByFieldId (ms : list member) (p : any) (id : Z) : any :=
  match p with AStruct _ _ _ attrs => gs_switch ms attrs id | _ => ANil end.

(** The embedded *tStruct made by NewX(), t_go_generator.cc:922-939, tstruct.go:48-53. *)
Definition inner (p : any) : any :=
  match p with
  | AStruct _ n fc _ => AStruct 0 n (NewTFieldContainer 0 (fc_fields fc)) []
  | _ => ANil
  end.
(** Equals, promoted from the embedded *tStruct, whose CompareTo is Compare of that object
    and not of the generated one: tstruct.go:71-82. *)
Definition gs_Equals (x : ext) (fuel : nat) (p other : any) : outcome bool :=
  ' (c, ok) <- Compare x fuel STRUCT (inner p) other ;; Ok (ok && (c =? 0)).

(** ** Specification *)

(** The structs of one generated type: any member values. *)
Inductive of_type (name : bytes) (ms : list member) : any -> Prop :=
| ot_struct a attrs : of_type name ms (AStruct a name (fc_of ms) attrs).

(** ** Proofs *)
Lemma fc_refl : forall a b fs, NoDup (map f_id fs) ->
  fc_CompareTo (NewTFieldContainer a fs) (CCont (NewTFieldContainer b fs)) = (0, true).
Proof.
  intros a b fs N. unfold fc_CompareTo. destruct (same_obj _ _); [reflexivity|].
  destruct (container_fields a fs) as (_ & Ea & _). destruct (container_fields b fs) as (_ & Eb & Ei & _).
  unfold fc_Len. rewrite Ea, Eb. unfold CompareInt. rewrite Z.ltb_irrefl. cbn [Z.eqb negb].
  assert (G : forall l, incl l fs -> fc_cmp_loop l (NewTFieldContainer b fs) = (0, true)); [|apply G, incl_refl].
  induction l as [|f l IH]; intros I; [reflexivity|]. cbn [fc_cmp_loop].
  assert (fc_At (NewTFieldContainer b fs) (f_id f) = f) as ->.
  { unfold fc_At, FieldFromFieldId. rewrite Ei, id_lookup.
    rewrite (last_by_unique _ fs f); [reflexivity|apply I; left; reflexivity|lia|].
    intros g Hg E. apply (nodup_map_inj _ _ f_id fs); auto; [apply I; left; reflexivity|lia]. }
  rewrite (proj2 (field_compare_0 f f)) by auto. cbn [negb orb Z.eqb].
  apply IH. intros g Hg. apply I. right. exact Hg.
Qed.

Lemma cmp_nils : forall x f p, Compare x (S f) p ANil ANil = Ok (0, true).
Proof. intros x f p. cbn [Compare]. unfold quick_eq. destruct (p =? BINARY); reflexivity. Qed.

(** Two structs of one name and field table are equal. *)
Lemma Compare_same : forall x f n fi fj a b s t,
  fc_CompareTo fi (CCont fj) = (0, true) ->
  Compare x (S (S f)) STRUCT (AStruct a n fi s) (AStruct b n fj t) = Ok (0, true).
Proof.
  intros x f n fi fj a b s t H. remember (S f) as f1 eqn:Ef. cbn [Compare].
  change (quick_eq STRUCT (AStruct a n fi s) (AStruct b n fj t)) with (Ok (same_obj a b)).
  cbn [obind]. destruct (same_obj a b) eqn:E; [reflexivity|].
  cbn [is_nil]. change (CoerceData x STRUCT (AStruct a n fi s)) with (Ok (AStruct a n fi s, true)).
  change (CoerceData x STRUCT (AStruct b n fj t)) with (Ok (AStruct b n fj t, true)). cbn [obind andb negb].
  change (quick_eq STRUCT (AStruct a n fi s) (AStruct b n fj t)) with (Ok (same_obj a b)).
  cbn [obind]. rewrite E. cbn [is_nil]. unfold compare_coerced. change (STRUCT =? STRUCT) with true. cbn iota.
  rewrite (proj2 (CompareString_0 n n)) by reflexivity. cbn [Z.eqb negb]. rewrite H. cbn [negb orb Z.eqb].
  induction (fc_fields fi) as [|g l IH]; [reflexivity|].
  unfold AttributeFromFieldId at 1 2. rewrite Ef, cmp_nils, <- Ef. cbn [obind negb orb Z.eqb]. exact IH.
Qed.

Lemma fields_ids : forall ms, map f_id (fields_of ms) = map m_id ms.
Proof. intros ms. unfold fields_of. rewrite map_map. reflexivity. Qed.

Lemma Compare_type : forall x f name ms p q, NoDup (map m_id ms) ->
  of_type name ms p -> of_type name ms q -> Compare x (S (S f)) STRUCT p q = Ok (0, true).
Proof.
  intros x f name ms p q N [a s] [b t]. apply Compare_same. unfold fc_of. apply fc_refl.
  rewrite fields_ids. exact N.
Qed.

Lemma coerce_struct : forall x name ms p, of_type name ms p -> CoerceData x STRUCT p = Ok (p, true).
Proof. intros x name ms p [a s]. reflexivity. Qed.
Lemma struct_not_nil : forall name ms p, of_type name ms p -> is_nil p = false.
Proof. intros name ms p [a s]. reflexivity. Qed.

(** Sets. *)
Lemma adds_one : forall x f name ms n v l, NoDup (map m_id ms) -> of_type name ms v ->
  Forall (of_type name ms) l -> adds x (S (S f)) (MkTs STRUCT n [v]) l = Ok (MkTs STRUCT n [v]).
Proof.
  intros x f name ms n v l N Hv. induction 1 as [|w l Hw _ IH]; [reflexivity|].
  unfold adds in *. cbn [fills]. unfold ts_Add at 1. cbn [ts_et ts_l ts_size].
  rewrite (coerce_struct x name ms w Hw). cbn [obind add_loop].
  rewrite (Compare_type x f name ms w v N Hw Hv). cbn [obind andb Z.leb Z.ltb Z.compare]. exact IH.
Qed.
Lemma adds_first : forall x f name ms n v l, NoDup (map m_id ms) -> of_type name ms v ->
  Forall (of_type name ms) l -> adds x (S (S f)) (NewTSet STRUCT n) (v :: l) = Ok (MkTs STRUCT n [v]).
Proof.
  intros x f name ms n v l N Hv Hl. unfold adds. cbn [fills]. unfold ts_Add at 1, NewTSet.
  cbn [ts_et ts_l ts_size]. rewrite (coerce_struct x name ms v Hv). cbn [obind].
  exact (adds_one x f name ms n v l N Hv Hl).
Qed.

(** Maps. *)
Lemma set_one : forall x f name ms vt n l e c, NoDup (map m_id ms) ->
  (vt =? STOP) || (vt =? VOID) = false -> (length l <= 1)%nat ->
  Forall (fun e => of_type name ms (fst e)) l ->
  of_type name ms (fst e) -> CoerceData x vt (snd e) = Ok (c, true) ->
  tm_Set x (S (S f)) (MkTm STRUCT vt n l []) (fst e) (snd e) = Ok (MkTm STRUCT vt n [(fst e, c)] []).
Proof.
  intros x f name ms vt n l [k' b'] c N Hvt Hl Fl He Hb. unfold tm_Set.
  cbn [tm_kt tm_vt tm_size tm_l tm_b fst snd] in *.
  change ((STRUCT =? STOP) || (STRUCT =? VOID)) with false. cbn iota.
  rewrite (coerce_struct x name ms k' He). cbn [obind negb]. rewrite Hvt. rewrite Hb. cbn [obind negb].
  change (negb (IsBaseType STRUCT) || (STRUCT =? BINARY)) with true. cbn iota.
  destruct l as [|[k b] [|]]; [reflexivity| |cbn in Hl; lia]. inversion Fl; subst. cbn [list_set].
  rewrite (Compare_type x f name ms k' k N) by assumption. reflexivity.
Qed.
Lemma sets_last : forall x f name ms vt n u v c, NoDup (map m_id ms) ->
  (vt =? STOP) || (vt =? VOID) = false -> of_type name ms u -> CoerceData x vt v = Ok (c, true) ->
  forall l l0, (length l0 <= 1)%nat -> Forall (fun e => of_type name ms (fst e)) l0 ->
  Forall (fun e => of_type name ms (fst e) /\ exists d, CoerceData x vt (snd e) = Ok (d, true)) l ->
  sets x (S (S f)) (MkTm STRUCT vt n l0 []) (l ++ [(u, v)]) = Ok (MkTm STRUCT vt n [(u, c)] []).
Proof.
  intros x f name ms vt n u v c N Hvt Hu Hv. induction l as [|e l IH]; intros l0 L0 F0 Hl; unfold sets in *.
  - cbn [app fills]. rewrite (set_one x f name ms vt n l0 (u, v) c) by auto. reflexivity.
  - inversion Hl as [|? ? [H1 (d & H2)] Hl']; subst. cbn [app fills].
    rewrite (set_one x f name ms vt n l0 e d) by auto. cbn [obind]. apply IH; auto.
Qed.

(** What is read as a struct is of its type. *)
Lemma reads_of_type : forall x cf name ms w v, reads x cf (TyStruct name ms) w v -> of_type name ms v.
Proof. intros x cf name ms w v H. inversion H; subst. constructor. Qed.
Lemma readss_of_type : forall x cf name ms ws vs, readss x cf (TyStruct name ms) ws vs ->
  Forall (of_type name ms) vs.
Proof.
  intros x cf name ms. induction ws as [|w ws IH]; intros vs H; inversion H; subst; constructor; auto.
  eapply reads_of_type; eauto.
Qed.
