(** What types are called, and what is never found equal: more of C62, C85 and C107. *)
From Coq Require Import String ZArith List Bool Lia.
From Coq Require Import ZifyBool ZifyNat.
From Verif Require Import Base Errors Transport Proto Arith Values WfDec Names.
From Verif Require Import F64 Strconv TField GoVal Compare CompareProofs TList TSet TMap TFieldProofs Gen GenCompare PropGen.
From Verif Require Import PropCompare3.
Import ListNotations.
Open Scope Z_scope.

(** ** C62: the names of the types *)

(** The numbers and names of the Thrift types. *)
Definition type_text : list (Z * string) :=
  [(0, "STOP"); (1, "VOID"); (2, "BOOL"); (3, "BYTE"); (4, "DOUBLE"); (6, "I16"); (8, "I32"); (10, "I64");
   (11, "STRING"); (12, "STRUCT"); (13, "MAP"); (14, "SET"); (15, "LIST"); (16, "ENUM"); (17, "UTF16");
   (18, "BINARY"); (127, "GENERIC")]%string.

Lemma names_in : forall t s, In (t, s) type_text -> TType_String t = lit s.
Proof.
  intros t s H. cbn [type_text In] in H.
  repeat (destruct H as [H|H]; [injection H as <- <-; reflexivity|]). destruct H.
Qed.
Lemma names_or : forall t, (exists s, In (t, s) type_text) \/ TType_String t = lit "Unknown"%string.
Proof.
  intros t. unfold TType_String.
  repeat match goal with
  | |- context [t =? ?k] => destruct (Z.eqb_spec t k) as [->|]; [left; eexists; cbn [type_text In]; tauto|]
  end.
  right. reflexivity.
Qed.
Lemma texts_distinct : NoDup (map (fun p => lit (snd p)) type_text) /\ NoDup (map fst type_text) /\
  ~ In (lit "Unknown"%string) (map (fun p => lit (snd p)) type_text).
Proof. split; [|split]; [nodup|nodup|]. vm_compute. intuition discriminate. Qed.

(** The name of a type is its own, and every number that is no type is called Unknown. *)
Theorem C62_names : forall t,
  (forall s, In (t, s) type_text -> TType_String t = lit s) /\
  ((forall s, ~ In (t, s) type_text) -> TType_String t = lit "Unknown"%string) /\
  (forall u, TType_String t = TType_String u -> t = u \/ TType_String t = lit "Unknown"%string).
Proof.
  intros t. split; [apply names_in|]. destruct (names_or t) as [[s Hs]|U].
  - split; [intros N; destruct (N s Hs)|]. intros u E. left. rewrite (names_in t s Hs) in E.
    destruct texts_distinct as (N1 & _ & NU). destruct (names_or u) as [[s' Hs']|U'].
    + rewrite (names_in u s' Hs') in E.
      assert (P : (t, s) = (u, s')) by (apply (nodup_map_inj _ _ (fun p => lit (snd p)) type_text); auto).
      congruence.
    + rewrite U' in E. destruct NU. rewrite <- E. apply (in_map (fun p => lit (snd p)) _ _ Hs).
  - split; [auto|]. intros u _. right. exact U.
Qed.
Print Assumptions C62_names.

(** UTF8 strings, a type of their own, are called ENUM. *)
Theorem C62_utf8_refuted : TType_String UTF8 = lit "ENUM"%string /\ UTF8 <> STRING /\ IsStringType UTF8 = true.
Proof. vm_compute. repeat split; discriminate. Qed.
Print Assumptions C62_utf8_refuted.
Example C62_names_case : TType_String 12 = lit "STRUCT"%string /\ TType_String 5 = lit "Unknown"%string.
Proof. split; reflexivity. Qed.

(** ** C107: what is not compared *)

(** A field is not compared exactly to what is no field, a field container exactly to what is no
    container, a generated struct to what is neither nil nor a struct of that name. *)
Theorem C107_not_compared :
  (forall f o, snd (field_CompareTo f o) = false <-> o = ONot) /\
  (forall c o, snd (fc_CompareTo c o) = false <-> o = CNot) /\
  (forall x f name p q, q <> ANil -> (forall a fc attrs, q <> AStruct a name fc attrs) ->
     gs_CompareTo x f name p q = Ok (0, false)).
Proof.
  assert (Hf : forall f o, snd (field_CompareTo f o) = false <-> o = ONot).
  { intros f [|d|]; cbn [field_CompareTo]; [split; discriminate| |tauto].
    destruct (negb _); [split; discriminate|]. destruct (negb _); split; discriminate. }
  split; [exact Hf|]. split.
  - intros c [|d|]; cbn [fc_CompareTo]; [split; discriminate| |tauto].
    destruct (same_obj _ _); [split; discriminate|]. destruct (negb _); [split; discriminate|].
    split; [|discriminate]. induction (fc_fields c) as [|g l IH]; cbn [fc_cmp_loop]; [discriminate|].
    destruct (field_CompareTo g _) as [k ok] eqn:E.
    assert (ok = true) as ->.
    { destruct ok; [reflexivity|]. assert (X : snd (field_CompareTo g (OField (fc_At d (f_id g)))) = false) by (rewrite E; reflexivity).
      apply Hf in X. discriminate. }
    cbn [negb orb]. destruct (negb (k =? 0)); [discriminate|apply IH].
  - intros x f name p q N S. unfold gs_CompareTo. destruct q; try reflexivity; [congruence|].
    destruct (str_eq name0 name) eqn:E; [|reflexivity]. apply str_eq_iff in E. subst. destruct (S a fields attrs); reflexivity.
Qed.
Print Assumptions C107_not_compared.
Example C107_not_compared_case : field_CompareTo (F [97] I32 1) ONot = (0, false) /\
  gs_CompareTo ext0 3 [80] (AStruct 0 [80] (NewTFieldContainer 0 []) []) (AInt32 4) = Ok (0, false).
Proof. split; reflexivity. Qed.

(** ** C85: what a generated struct is equal to *)

(** Equals is true only of structs of the same name with as many members. *)
Theorem C85_equals : forall x f name ms p q, name <> [] -> of_type name ms p ->
  gs_Equals x f p q = Ok true ->
  exists a fc attrs, q = AStruct a name fc attrs /\ length (fc_fields fc) = length ms.
Proof.
  intros x f name ms p q N [a attrs] E. unfold gs_Equals in E. destruct f as [|f]; [discriminate|].
  assert (I : inner (AStruct a name (fc_of ms) attrs) =
              AStruct 0 name (NewTFieldContainer 0 (fc_fields (fc_of ms))) []) by reflexivity.
  rewrite I in E. clear I. destruct (container_fields 0 (fc_fields (fc_of ms))) as (Ad & L & _).
  destruct (container_fields 0 (fields_of ms)) as (_ & L' & _).
  assert (Lm : length (fc_fields (fc_of ms)) = length ms).
  { unfold fc_of. rewrite L'. unfold fields_of. apply map_length. }
  set (c := NewTFieldContainer 0 (fc_fields (fc_of ms))) in *. clearbody c.
  destruct (Compare x (S f) STRUCT (AStruct 0 name c []) q) as [[k ok]| |] eqn:C; try discriminate. cbn [obind] in E.
  assert (ok = true /\ k = 0) as [-> ->] by (injection E as E; apply andb_prop in E; split; [tauto|lia]). clear E.
  assert (A : forall b n fc at', q = AStruct b n fc at' \/ (AStruct b n fc at' = NewTStructEmpty /\ forall b n fc at', q <> AStruct b n fc at') ->
    CoerceData x STRUCT q = Ok (AStruct b n fc at', true) -> n = name /\ length (fc_fields fc) = length ms).
  { intros b n fc at' Hq Q.
    cbn [Compare] in C.
    assert (Q1 : quick_eq STRUCT (AStruct 0 name c []) q = Ok false).
    { destruct Hq as [->|[_ Hq]]; [reflexivity|]. destruct q; try reflexivity. }
    rewrite Q1 in C. cbn [obind is_nil] in C. destruct (is_nil q); [discriminate|]. rewrite Q in C.
    change (CoerceData x STRUCT (AStruct 0 name c [])) with (Ok (AStruct 0 name c [], true)) in C. cbn [obind andb negb] in C.
    change (quick_eq STRUCT (AStruct 0 name c []) (AStruct b n fc at')) with (Ok false) in C. cbn [obind is_nil] in C.
    unfold compare_coerced in C. change (STRUCT =? STRUCT) with true in C. cbn iota zeta in C.
    destruct (Z.eqb_spec (CompareString name n) 0) as [Es|Es]; cbn [negb] in C; [|injection C as C; contradiction].
    apply CompareString_0 in Es. split; [symmetry; exact Es|].
    destruct (fc_CompareTo c (CCont fc)) as [k ok] eqn:Ef.
    assert (k = 0 /\ ok = true) as [-> ->].
    { destruct ok; cbn [negb orb] in C; [|congruence].
      destruct (Z.eqb_spec k 0); [auto|]. cbn [negb] in C. congruence. }
    clear C. unfold fc_CompareTo in Ef.
    rewrite Ad in Ef. unfold same_obj in Ef. change (0 <? 0) with false in Ef. cbn [andb] in Ef.
    destruct (Z.eqb_spec (CompareInt (fc_Len c) (fc_Len fc)) 0) as [El|El]; cbn [negb] in Ef; [|congruence].
    unfold fc_Len, CompareInt in El. rewrite L, Lm in El.
    destruct (Z.ltb_spec (Z.of_nat (length (fc_fields fc))) (Z.of_nat (length ms))); [discriminate|].
    destruct (Z.ltb_spec (Z.of_nat (length ms)) (Z.of_nat (length (fc_fields fc)))); [discriminate|lia]. }
  assert (K : (exists b n fc at', q = AStruct b n fc at') \/
    (forall b n fc at', q <> AStruct b n fc at')) by (destruct q; eauto 6; right; discriminate).
  destruct K as [(b & n & fc & at' & Eq)|K].
  - destruct (A b n fc at') as [-> B]; [left; exact Eq|rewrite Eq; reflexivity|]. subst q. eauto 6.
  - destruct (is_nil q) eqn:Nq.
    + destruct q; discriminate.
    + destruct (A fresh [] (NewTFieldContainer fresh []) []) as [B _]; [right; split; [reflexivity|exact K]| |congruence].
      destruct q; try reflexivity; try discriminate; exfalso; exact (K _ _ _ _ eq_refl).
Qed.
Print Assumptions C85_equals.
Example C85_equals_case :
  let ms := [Mem 1 [97] false None TyI32] in
  let p := AStruct 0 [80] (fc_of ms) [(1, AInt32 5)] in
  gs_Equals ext0 2 p p = Ok true /\ gs_Equals ext0 2 p (AStruct 0 [81] (fc_of ms) []) = Ok false /\
  gs_Equals ext0 2 p (AStruct 0 [79] (fc_of ms) []) = Ok false /\ gs_Equals ext0 2 p (AInt32 5) = Ok false.
Proof. vm_compute. auto. Qed.
