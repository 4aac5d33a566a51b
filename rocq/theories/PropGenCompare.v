(** Properties of the comparison of generated structs: C85. *)
From Coq Require Import ZArith List Bool Lia.
From Coq Require Import ZifyBool ZifyNat.
From Verif Require Import Base Errors Transport Proto Arith Values Binary BinarySpec BinaryProofs TransportProofs.
From Verif Require Import F64 Strconv TField GoVal Compare CompareProofs TList TSet TMap TFieldProofs.
From Verif Require Import Gen GenSpec GenProofs GenInst GenCompare PropGen WfDec.
Import ListNotations.
Open Scope Z_scope.

(** ** C85 *)

(** Every two structs of one generated type are equal to CompareTo and to Equals, whatever their
    members hold. *)
Theorem C85_same_type : forall x f name ms p q, NoDup (map m_id ms) ->
  of_type name ms p -> of_type name ms q ->
  gs_CompareTo x (S (S f)) name p q = Ok (0, true) /\ gs_Equals x (S (S f)) p q = Ok true.
Proof.
  intros x f name ms p q N Hp Hq. split.
  - destruct Hq as [b t]. unfold gs_CompareTo. rewrite str_eq_refl.
    apply (Compare_type x f name ms); auto. constructor.
  - destruct Hp as [a s]. destruct Hq as [b t]. unfold gs_Equals, inner.
    rewrite Compare_same; [reflexivity|]. unfold fc_of.
    destruct (container_fields 0 (fields_of ms)) as (_ & -> & _). apply fc_refl. rewrite fields_ids. exact N.
Qed.
Print Assumptions C85_same_type.

(** nil comes before every struct; a value of another type is not compared. *)
Theorem C85_other : forall x f name ms p, of_type name ms p ->
  gs_CompareTo x f name p ANil = Ok (1, true) /\
  (forall n2 ms2 q, n2 <> name -> of_type n2 ms2 q -> gs_CompareTo x f name p q = Ok (0, false)).
Proof.
  intros x f name ms p Hp. split; [reflexivity|]. intros n2 ms2 q Hn [b t]. unfold gs_CompareTo.
  destruct (str_eq n2 name) eqn:E; [|reflexivity]. apply str_eq_iff in E. contradiction.
Qed.
Print Assumptions C85_other.

(** AttributeByFieldId, which nothing calls, does give the members. *)
Theorem C85_attribute : forall name ms a attrs id,
  let p := AStruct a name (fc_of ms) attrs in
  (In id (map m_id ms) -> gs_AttributeByFieldId ms p id = attribute attrs id) /\
  (~ In id (map m_id ms) -> gs_AttributeByFieldId ms p id = ANil).
Proof.
  intros name ms a attrs id. cbn [gs_AttributeByFieldId]. cbv zeta. unfold gs_AttributeByFieldId.
  induction ms as [|m ms IH]; cbn [gs_switch map In]; [tauto|].
  destruct (Z.eqb_spec id (m_id m)) as [->|E]; [tauto|]. split.
  - intros [H|H]; [congruence|]. apply IH, H.
  - intros H. apply IH. tauto.
Qed.
Print Assumptions C85_attribute.

(** So structs that differ in a member are equal. *)
Theorem C85_members_refuted : exists name ms p q id,
  of_type name ms p /\ of_type name ms q /\
  gs_AttributeByFieldId ms p id <> gs_AttributeByFieldId ms q id /\
  gs_CompareTo ext0 2 name p q = Ok (0, true) /\ gs_Equals ext0 2 p q = Ok true.
Proof.
  exists [80], [Mem 1 [97] false None TyI32],
    (AStruct 0 [80] (fc_of [Mem 1 [97] false None TyI32]) [(1, AInt32 5)]),
    (AStruct 0 [80] (fc_of [Mem 1 [97] false None TyI32]) [(1, AInt32 6)]), 1.
  split; [constructor|]. split; [constructor|]. split; [vm_compute; discriminate|].
  split; vm_compute; reflexivity.
Qed.
Print Assumptions C85_members_refuted.

(** A list that holds one struct of the type contains every struct of the type. *)
Theorem C85_contains : forall x f name ms v l q, NoDup (map m_id ms) ->
  Forall (of_type name ms) (v :: l) -> of_type name ms q ->
  tl_Contains x (S (S f)) (MkTl STRUCT (v :: l)) q = Ok true /\
  ts_Contains x (S (S f)) (MkTs STRUCT 0 (v :: l)) q = Ok true.
Proof.
  intros x f name ms v l q N Hl Hq. inversion Hl as [|? ? Hv _]; subst.
  assert (E : same_elem x (S (S f)) STRUCT q v = Ok true).
  { pose proof (Compare_type x f name ms q v N Hq Hv) as C. unfold same_elem.
    change (STRUCT =? BINARY) with false. change (IsBaseType STRUCT || IsEnum STRUCT) with false. cbn iota.
    destruct Hq as [a s]. rewrite C. reflexivity. }
  split.
  - unfold tl_Contains, tl_indexOf. rewrite (struct_not_nil name ms q Hq). cbn [tl_et tl_l].
    rewrite (coerce_struct x name ms q Hq). cbn [obind]. rewrite (struct_not_nil name ms q Hq). cbn [orb negb].
    cbn [find_idx]. rewrite E. reflexivity.
  - unfold ts_Contains, ts_find. rewrite (struct_not_nil name ms q Hq). cbn [ts_et ts_l].
    rewrite (coerce_struct x name ms q Hq). cbn [obind]. rewrite (struct_not_nil name ms q Hq). cbn [orb negb].
    cbn [find_idx]. rewrite E. reflexivity.
Qed.
Print Assumptions C85_contains.

(** Structs of another name are not found: neither in a list, nor in a set, nor among the keys of
    a map. *)
Theorem C85_not_found : forall x f name ms l n2 ms2 q, n2 <> name ->
  Forall (of_type name ms) l -> of_type n2 ms2 q -> (forall e, In e l -> go_eq q e = Ok false) ->
  tl_Contains x (S f) (MkTl STRUCT l) q = Ok false /\ ts_Contains x (S f) (MkTs STRUCT 0 l) q = Ok false /\
  forall vs vt n, tm_Contains x (S f) (MkTm STRUCT vt n (combine l vs) []) q = Ok false.
Proof.
  intros x f name ms l n2 ms2 q0 Hn Hl [b t] Ap.
  assert (D : forall n n' fi fj a a' s s', n <> n' -> same_obj a a' = false ->
    exists c, Compare x (S f) STRUCT (AStruct a n fi s) (AStruct a' n' fj s') = Ok (c, true) /\ (c =? 0) = false).
  { intros n n' fi fj a a' s s' Ne So. exists (CompareString n n'). cbn [Compare].
    change (quick_eq STRUCT (AStruct a n fi s) (AStruct a' n' fj s')) with (Ok (same_obj a a')). rewrite So. cbn [obind is_nil].
    change (CoerceData x STRUCT (AStruct a n fi s)) with (Ok (AStruct a n fi s, true)).
    change (CoerceData x STRUCT (AStruct a' n' fj s')) with (Ok (AStruct a' n' fj s', true)). cbn [obind andb negb].
    change (quick_eq STRUCT (AStruct a n fi s) (AStruct a' n' fj s')) with (Ok (same_obj a a')). rewrite So. cbn [obind is_nil].
    unfold compare_coerced. change (STRUCT =? STRUCT) with true. cbn iota.
    destruct (Z.eqb_spec (CompareString n n') 0) as [E|E]; [apply CompareString_0 in E; contradiction|split; reflexivity]. }
  set (q := AStruct b n2 (fc_of ms2) t) in *.
  assert (E : forall e, In e l -> same_elem x (S f) STRUCT q e = Ok false).
  { intros e He. rewrite Forall_forall in Hl. specialize (Ap e He). destruct (Hl e He) as [a s].
    cbn [q go_eq] in Ap. injection Ap as Ap.
    destruct (D n2 name (fc_of ms2) (fc_of ms) b a t s Hn Ap) as (c & Dc & Nc). unfold same_elem.
    change (STRUCT =? BINARY) with false. change (IsBaseType STRUCT || IsEnum STRUCT) with false. cbn iota.
    unfold q. rewrite Dc. cbn [obind]. rewrite Nc. reflexivity. }
  assert (F : forall m i, incl m l -> find_idx (same_elem x (S f) STRUCT q) m i = Ok (-1)).
  { induction m as [|e m IH]; intros i I; [reflexivity|]. cbn [find_idx]. rewrite (E e) by (apply I; left; reflexivity).
    cbn [obind]. apply IH. intros u Hu. apply I. right. exact Hu. }
  split; [|split].
  - unfold tl_Contains, tl_indexOf. cbn [tl_et tl_l]. change (is_nil q) with false. cbn iota.
    change (CoerceData x STRUCT q) with (Ok (q, true)). cbn [obind]. change (is_nil q || negb true) with false. cbn iota.
    rewrite (F l 0) by apply incl_refl. reflexivity.
  - unfold ts_Contains, ts_find. cbn [ts_et ts_l]. change (is_nil q) with false. cbn iota.
    change (CoerceData x STRUCT q) with (Ok (q, true)). cbn [obind]. change (is_nil q || negb true) with false. cbn iota.
    rewrite (F l 0) by apply incl_refl. reflexivity.
  - intros vs vt n. unfold tm_Contains. cbn [tm_kt tm_l tm_b]. change (CoerceData x STRUCT q) with (Ok (q, true)).
    cbn [obind negb]. change (is_nil q) with false. change (IsEmptyType STRUCT) with false. change (go_map_type STRUCT) with false.
    change (mem STRUCT [BINARY; STRUCT; MAP; SET; LIST]) with true. cbn iota.
    assert (G : forall m w, incl m l -> list_get x (S f) STRUCT q (combine m w) = Ok None).
    { induction m as [|e m IH]; intros w I; [reflexivity|]. destruct w as [|u w]; [reflexivity|]. cbn [combine list_get].
      assert (He : In e l) by (apply I; left; reflexivity). rewrite Forall_forall in Hl. specialize (Ap e He).
      destruct (Hl e He) as [a s]. cbn [q go_eq] in Ap. injection Ap as Ap.
      assert (Ap' : same_obj a b = false) by (unfold same_obj in *; lia).
      destruct (D name n2 (fc_of ms) (fc_of ms2) a b s t) as (c & Dc & Nc); [congruence|exact Ap'|].
      unfold list_key_eq. change (STRUCT =? BINARY) with false. change (STRUCT =? STRUCT) with true. cbn iota.
      fold q in Dc. rewrite Dc. cbn [obind]. rewrite Nc. cbn [andb]. apply IH. intros v Hv. apply I. right. exact Hv. }
    rewrite (G l vs) by apply incl_refl. reflexivity.
Qed.
Print Assumptions C85_not_found.

(** A set of structs keeps the first one it is given and no other. *)
Theorem C85_set : forall x f name ms n v l, NoDup (map m_id ms) ->
  Forall (of_type name ms) (v :: l) ->
  adds x (S (S f)) (NewTSet STRUCT n) (v :: l) = Ok (MkTs STRUCT n [v]).
Proof.
  intros x f name ms n v l N Hl. inversion Hl; subst. eapply adds_first; eauto.
Qed.
Print Assumptions C85_set.

(** A map with struct keys keeps the last entry it is given and no other. *)
Theorem C85_map : forall x f name ms vt n l u v c, NoDup (map m_id ms) ->
  (vt =? STOP) || (vt =? VOID) = false ->
  Forall (fun e => of_type name ms (fst e) /\ exists d, CoerceData x vt (snd e) = Ok (d, true)) l ->
  of_type name ms u -> CoerceData x vt v = Ok (c, true) ->
  sets x (S (S f)) (NewTMap STRUCT vt n) (l ++ [(u, v)]) = Ok (MkTm STRUCT vt n [(u, c)] []).
Proof.
  intros x f name ms vt n l u v c N Hvt Hl Hu Hv. apply (sets_last x f name ms); auto.
Qed.
Print Assumptions C85_map.

(** A generated reader given a set of structs returns a set of its first element: with the
    binary protocol, for every encoding of one or more elements. *)
Theorem C85_set_read : forall strict x M cf name ms w ws vs f r rest,
  wf (VSet STRUCT (w :: ws)) -> schema_ok (TySet (TyStruct name ms)) ->
  readss x (S (S cf)) (TyStruct name ms) (w :: ws) vs ->
  (need (VSet STRUCT (w :: ws)) <= f)%nat -> benign r -> content r = sb_val (VSet STRUCT (w :: ws)) ++ rest ->
  exists v r', reads x (S (S cf)) (TyStruct name ms) w v /\
    gread (binaryR strict) x M (S (S cf)) f (TySet (TyStruct name ms)) r =
      Ok (inl (ASet 0 STRUCT (Z.of_nat (length (w :: ws))) [v]), r') /\
    benign r' /\ content r' = rest.
Proof.
  intros strict x M cf name ms w ws vs f r rest Hw So Rs Hf B C.
  assert (N : NoDup (map m_id ms)).
  { inversion So; subst. match goal with X : schema_ok (TyStruct _ _) |- _ => inversion X; subst end. match goal with X : members_ok _ |- _ => apply X end. }
  pose proof (readss_of_type _ _ _ _ _ _ Rs) as Ft. inversion Rs as [|? ? v ? vs' Rv Rvs]; subst.
  assert (R : reads x (S (S cf)) (TySet (TyStruct name ms)) (VSet STRUCT (w :: ws))
                (ASet 0 STRUCT (Z.of_nat (length (w :: ws))) [v])).
  { apply (re_set x (S (S cf)) (TyStruct name ms) STRUCT (w :: ws) (v :: vs') (MkTs STRUCT (Z.of_nat (length (w :: ws))) [v])); auto.
    inversion Ft; subst. eapply adds_first; eauto. }
  destruct (bin_read strict x M (S (S cf)) _ _ _ f r rest Hw R So Hf B C) as (r' & G & B' & C').
  exists v, r'. auto.
Qed.
Print Assumptions C85_set_read.

(** A set of three structs and a map with three struct keys, written and read back: one element,
    one entry. *)
Definition ms_p : list member := [Mem 1 [97] false None TyI32].
Definition pt (z : Z) : any := AStruct 0 [80] (fc_of ms_p) [(1, AInt32 z)].
Theorem C85_set_refuted : exists v1 v2 v3,
  v1 <> v2 /\ v2 <> v3 /\ v1 <> v3 /\
  rw (TySet (TyStruct [80] ms_p)) (ASet 0 STRUCT 3 [v1; v2; v3]) = Ok (inl (ASet 0 STRUCT 3 [v1]), []).
Proof.
  exists (pt 1), (pt 2), (pt 3). split; [discriminate|]. split; [discriminate|]. split; [discriminate|]. vm_compute. reflexivity.
Qed.
Print Assumptions C85_set_refuted.
Theorem C85_map_refuted : exists k1 k2 k3,
  k1 <> k2 /\ k2 <> k3 /\ k1 <> k3 /\
  rw (TyMap (TyStruct [80] ms_p) TyString)
     (AMap 0 STRUCT STRING 3 [(k1, AStr [97]); (k2, AStr [98]); (k3, AStr [99])] []) =
  Ok (inl (AMap 0 STRUCT STRING 3 [(k3, AStr [99])] []), []).
Proof.
  exists (pt 1), (pt 2), (pt 3). split; [discriminate|]. split; [discriminate|]. split; [discriminate|]. vm_compute. reflexivity.
Qed.
Print Assumptions C85_map_refuted.

Example C85_ex :
  NoDup (map m_id ms_p) /\ Forall (of_type [80] ms_p) [pt 7; pt 8; pt 9] /\
  gs_CompareTo ext0 2 [80] (pt 7) (pt 8) = Ok (0, true) /\
  gs_CompareTo ext0 2 [80] (pt 7) (AStruct 0 [81] (fc_of []) []) = Ok (0, false) /\
  gs_AttributeByFieldId ms_p (pt 7) 1 = AInt32 7 /\ gs_AttributeByFieldId ms_p (pt 7) 2 = ANil /\
  tl_Contains ext0 2 (MkTl STRUCT [pt 7; pt 8]) (pt 9) = Ok true /\
  adds ext0 2 (NewTSet STRUCT 3) [pt 7; pt 8; pt 9] = Ok (MkTs STRUCT 3 [pt 7]) /\
  sets ext0 2 (NewTMap STRUCT I32 2) [(pt 7, AInt32 1); (pt 8, AInt32 2)] =
    Ok (MkTm STRUCT I32 2 [(pt 8, AInt32 2)] []).
Proof.
  split; [repeat constructor; intros []|]. split; [repeat constructor|]. repeat split; vm_compute; reflexivity.
Qed.
Example C85_ex_read :
  let w z := VStruct [(1, VI32 z)] in
  wf (VSet STRUCT [w 7; w 8]) /\ schema_ok (TySet (TyStruct [80] ms_p)) /\
  readss ext0 2 (TyStruct [80] ms_p) [w 7; w 8] [pt 7; pt 8] /\
  gread (binaryR true) ext0 64 2 30 (TySet (TyStruct [80] ms_p))
    [(sb_val (VSet STRUCT [w 7; w 8]) ++ [5], None)] = Ok (inl (ASet 0 STRUCT 2 [pt 7]), [([5], None)]).
Proof.
  cbv zeta. split; [concrete|]. split.
  { constructor. constructor.
    - split; [repeat constructor; intros []|]. split; [repeat constructor; intros []|].
      intros m [<-|[]]. cbn. split; [discriminate|lia].
    - intros m [<-|[]]. constructor. }
  split; [|vm_compute; reflexivity].
  assert (K : forall z, reads ext0 2 (TyStruct [80] ms_p) (VStruct [(1, VI32 z)]) (pt z)).
  { intros z. unfold pt. apply re_struct. eapply ref_known; [left; reflexivity|reflexivity|constructor|].
    apply ref_nil. }
  apply res_cons; [apply K|]. apply res_cons; [apply K|]. apply res_nil.
Qed.
Example C85_ex_other :
  [81] <> [80] /\ Forall (of_type [80] ms_p) [pt 7; pt 8] /\ of_type [81] ms_p (AStruct 0 [81] (fc_of ms_p) []) /\
  (forall e, In e [pt 7; pt 8] -> go_eq (AStruct 0 [81] (fc_of ms_p) []) e = Ok false) /\
  tl_Contains ext0 2 (MkTl STRUCT [pt 7; pt 8]) (AStruct 0 [81] (fc_of ms_p) []) = Ok false.
Proof.
  split; [discriminate|]. split; [repeat constructor|]. split; [constructor|].
  split; [intros e [<-|[<-|[]]]; reflexivity|]. vm_compute. reflexivity.
Qed.
