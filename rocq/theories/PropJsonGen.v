(** C71: generated struct code over TJSONProtocol. *)
From Coq Require Import ZArith List Bool Lia String Permutation.
From Coq Require Import ZifyBool ZifyNat.
From Verif Require Import Base Arith Errors Transport TransportProofs Proto Values WfDec Access Strconv JsonText JsonTextProofs
  F64 TField GoVal Names Compare TList TSet TMap Gen GenSpec GenProofs GenRound
  BufIO BufRead BufReadProofs Json JsonSpec JsonWrite JsonRead JsonReadVal JsonForm PropJson PropGen.
Import ListNotations.
Local Open Scope list_scope.
Local Notation length := List.length.
Open Scope Z_scope.

Section Steps.
Variable J : jenv.
Lemma json_wr : forall v c l o, wf v -> is_key c = false ->
  wr false (jsonW J) v (MkWt o [], c :: l) (MkWt (o ++ sep c ++ vtext J v) [], after_value c :: l).
Proof.
  intros v c l o W K. apply write_val_wr; try reflexivity. exact (write_val_text J v W c l K o).
Qed.
Lemma json_write : forall x t v w f o, wireof x t v w -> no_binary t -> (need w <= f)%nat ->
  gwrite (jsonW J) x f t v (json_w (MkWt o [])) = Ok (None, (MkWt (o ++ vtext J w) [], [TopLevel; TopLevel])).
Proof.
  intros x t v w f o W Nb N. eapply (proj1 (wr_gwrite_all (jsonW J) x false)); [exact W|intros _; exact Nb| |exact N].
  apply (json_wr w TopLevel [TopLevel] o); [|reflexivity]. eapply wireof_wf. exact W.
Qed.
Lemma json_read : forall k x M cf t w v f r rest, k <> Loose -> wf w -> plain_val J k w ->
  reads x cf t (canon w) v -> schema_ok t -> no_binary t -> (need w <= f)%nat ->
  readable k (vtext J w) rest r -> follows w rest ->
  exists b, gread (jsonR J) x M cf f t (json_r r) = Ok (inl v, (b, [TopLevel; TopLevel])) /\ holds b rest.
Proof.
  intros k x M cf t w v f r rest Kl W P R So Nb N Rd F. apply readable_view in Rd.
  rewrite <- (app_nil_r (vtext J w)) in Rd.
  destruct (rd_val_good J k Kl w W P TopLevel [TopLevel] eq_refl (new_breader r) 0 [] rest Rd F) as (b & p & D & V).
  exists b. split; [|exact (view_holds _ _ _ _ _ V)].
  eapply (proj1 (rd_gread_all (jsonR J) false x M cf)); try eassumption; [intros _; exact Nb|]. now rewrite need_canon.
Qed.
End Steps.

(** A value for which [kept] holds (PropGen.v, C48) is written, and what was written is read back
    with the same contents.  [w] is its wire form: its strings are UTF-8, its doubles are formatted
    and parsed back, no member and no map key or value is an i16, and its NaNs are the NaN of Go.
    Missing: what [kept] and these conditions exclude, types with binary, other cuts of the text. *)
Theorem C71_round_trip_partial : forall J k x M cf t v w, k <> Loose ->
  orders x -> schema_ok t -> no_binary t -> kept x t v ->
  wireof x t v w -> plain_val J k w -> canon w = w ->
  exists doc n, forall f, (n <= f)%nat ->
    (forall o, gwrite (jsonW J) x f t v (json_w (MkWt o [])) = Ok (None, (MkWt (o ++ doc) [], [TopLevel; TopLevel]))) /\
    forall r rest, readable k doc rest r -> follows w rest ->
    exists v' b, gread (jsonR J) x M cf f t (json_r r) = Ok (inl v', (b, [TopLevel; TopLevel])) /\ same v v' /\ holds b rest.
Proof.
  intros J k x M cf t v w Kl Ho So Nb K W P C. destruct (kept_round x cf Ho t v K So) as (w' & W' & R).
  assert (E : w' = w) by (eapply wireof_fun; eassumption). subst w'.
  exists (vtext J w), (need w). intros f N. split; [intros; now apply json_write|].
  intros r rest Rd F. destruct (R false) as (v' & R1 & S1). cbn [ue] in R1. rewrite <- C in R1.
  destruct (json_read J k x M cf t w v' f r rest Kl (wireof_wf _ _ _ _ W) P R1 So Nb N Rd F) as (b & G & H).
  exists v', b. auto.
Qed.
Print Assumptions C71_round_trip_partial.
(** A document of at most 4096 bytes in one piece. *)
Theorem C71_one_chunk_partial : forall J x M cf t v w,
  orders x -> schema_ok t -> no_binary t -> kept x t v ->
  wireof x t v w -> plain_val J Short w -> canon w = w ->
  exists doc n, forall f, (n <= f)%nat ->
    gwrite (jsonW J) x f t v (json_w (MkWt [] [])) = Ok (None, (MkWt doc [], [TopLevel; TopLevel])) /\
    ((length doc <= 4096)%nat ->
     exists v' s, gread (jsonR J) x M cf f t (json_r [(doc, None)]) = Ok (inl v', s) /\ same v v').
Proof.
  intros J x M cf t v w Ho So Nb K W P C. destruct (kept_round x cf Ho t v K So) as (w' & W' & R).
  assert (E : w' = w) by (eapply wireof_fun; eassumption). subst w'.
  exists (vtext J w), (need w). intros f N. split; [exact (json_write J x t v w f [] W Nb N)|]. intros L.
  pose proof (wireof_wf _ _ _ _ W) as Ww. destruct (vtext_start J Short w Ww P) as [Ne T].
  destruct (R false) as (v' & R1 & S1). cbn [ue] in R1. rewrite <- C in R1.
  destruct (json_read J Short x M cf t w v' f [(vtext J w, None)] [] ltac:(discriminate) Ww P R1 So Nb N) as (b & G & H).
  { now apply one_chunk. }
  { apply follows_delim. exact I. }
  eauto.
Qed.
Print Assumptions C71_one_chunk_partial.

(** Fields with ids the reader does not know are passed over, whatever their type: the result is the one
    without them.  Missing: as for C59. *)
Theorem C71_unknown_partial : forall J k x M cf name ms fs v f r rest, k <> Loose ->
  schema_ok (TyStruct name ms) -> no_binary (TyStruct name ms) ->
  wf (VStruct fs) -> plain_val J k (VStruct fs) -> canon (VStruct fs) = VStruct fs ->
  reads x cf (TyStruct name ms) (VStruct (filter (known ms) fs)) v ->
  (need (VStruct fs) <= f)%nat -> readable k (vtext J (VStruct fs)) rest r -> nows rest ->
  exists b, gread (jsonR J) x M cf f (TyStruct name ms) (json_r r) = Ok (inl v, (b, [TopLevel; TopLevel])) /\ holds b rest.
Proof.
  intros J k x M cf name ms fs v f r rest Kl So Nb W P C R N Rd F.
  apply (json_read J k x M cf _ (VStruct fs) v f r rest); try assumption. rewrite C.
  inversion R; subst. constructor. now apply insert_unknown.
Qed.
Print Assumptions C71_unknown_partial.

(** A reader of an older schema reads what a writer of a newer one wrote. *)
Theorem C71_newer_writer_partial : forall J k x M cf name2 ms2 name1 ms1 a fc attrs w, k <> Loose ->
  orders x -> schema_ok (TyStruct name2 ms2) -> schema_ok (TyStruct name1 ms1) -> incl ms1 ms2 ->
  no_binary (TyStruct name2 ms2) -> kept x (TyStruct name2 ms2) (AStruct a name2 fc attrs) ->
  wireof x (TyStruct name2 ms2) (AStruct a name2 fc attrs) w -> plain_val J k w -> canon w = w ->
  exists doc n, forall f, (n <= f)%nat ->
    (forall o, gwrite (jsonW J) x f (TyStruct name2 ms2) (AStruct a name2 fc attrs) (json_w (MkWt o [])) =
       Ok (None, (MkWt (o ++ doc) [], [TopLevel; TopLevel]))) /\
    forall r rest, readable k doc rest r -> nows rest ->
    exists attrs' b, gread (jsonR J) x M cf f (TyStruct name1 ms1) (json_r r) =
        Ok (inl (AStruct 0 name1 (fc_of ms1) attrs'), (b, [TopLevel; TopLevel])) /\ holds b rest /\
      map fst attrs' = map m_id ms1 /\
      forall m, In m ms1 -> same (attribute attrs (m_id m)) (attribute attrs' (m_id m)).
Proof.
  intros J k x M cf name2 ms2 name1 ms1 a fc attrs w Kl Ho So2 So1 Hi Nb K W P C.
  destruct (subset_round x cf Ho name2 name1 ms2 ms1 a fc attrs K So2 Hi) as (w' & W' & R).
  assert (E : w' = w) by (eapply wireof_fun; eassumption). subst w'.
  exists (vtext J w), (need w). intros f N. split; [intros; now apply json_write|].
  intros r rest Rd F. destruct (R false) as (attrs' & R1 & R2 & R3). cbn [ue] in R1. rewrite <- C in R1.
  assert (Nb1 : no_binary (TyStruct name1 ms1)).
  { inversion Nb; subst. constructor. intros m Hm. auto. }
  assert (F' : follows w rest) by (inversion W; subst; exact F).
  destruct (json_read J k x M cf _ w _ f r rest Kl (wireof_wf _ _ _ _ W) P R1 So1 Nb1 N Rd F') as (b & G & H).
  exists attrs', b. split; [exact G|]. split; [exact H|]. split; [exact R2|].
  intros m Hm. apply R3; [exact Hm|]. inversion So1 as [| | | | | | | | | | | |? ? Mo ?]; subst. apply Mo.
Qed.
Print Assumptions C71_newer_writer_partial.

(** A struct whose first member to be written is an i16 is never read back: the reader does not know the
    type name TJSONProtocol writes for it, takes the field for the end of the struct and then reports
    invalid data. *)
Theorem C71_i16_first : forall J k x M cf name ms v id z fs f, k <> Loose ->
  no_binary (TyStruct name ms) -> wireof x (TyStruct name ms) v (VStruct ((id, VI16 z) :: fs)) ->
  (need (VStruct ((id, VI16 z) :: fs)) <= f)%nat ->
  exists doc, gwrite (jsonW J) x f (TyStruct name ms) v (json_w (MkWt [] [])) = Ok (None, (MkWt doc [], [TopLevel; TopLevel])) /\
    forall r rest, readable k doc rest r ->
    exists s, gread (jsonR J) x M cf f (TyStruct name ms) (json_r r) = Ok (inr (EProtocol INVALID_DATA), s).
Proof.
  intros J k x M cf name ms v id z fs f Kl Nb W N. exists (vtext J (VStruct ((id, VI16 z) :: fs))).
  split; [exact (json_write J x _ v _ f [] W Nb N)|]. intros r rest Rd. apply readable_view in Rd.
  pose proof (wireof_wf _ _ _ _ W) as [[Wi Wz] _]. cbn [fst snd] in *.
  destruct f as [|[|f]]; [cbn in N; lia|cbn in N; lia|].
  set (tail := [58] ++ FormatInt z ++ [125] ++ flat_map (fun f => 44 :: field_text J f) fs ++ [125]).
  destruct (ObjectStart_view TopLevel k (new_breader r) 0
              (quoted (FormatInt id) ++ [58; 123] ++ type_text I16 ++ tail) rest [TopLevel] (rdy k Kl _ _)) as (b1 & E1 & V1).
  { eapply view_eq; [exact Rd|]. cbn [vtext sep flat_map tl app fst snd vtype]. unfold tail, field_text.
    rewrite <- !app_assoc. cbn [app]. rewrite <- !app_assoc. cbn [app]. rewrite <- !app_assoc. reflexivity. }
  assert (E2 : exists b2, jReadFieldBegin J (b1, [ObjFirst; TopLevel; TopLevel]) =
                 Ok (([], STOP, id), None, (b2, [NextValue; NextValue; TopLevel; TopLevel])) /\ view k b2 34 tail rest).
  { unfold jReadFieldBegin. cbn [fst].
    destruct (tight_un _ _ _ _ _ _ Kl V1 (tight_brace _)) as [u U]. rewrite U. cbn iota. cbn [Z.eqb Pos.eqb orb].
    assert (H64 : in_s 64 id) by (apply (in_s_64 16); [lia|assumption]). unfold ReadI16.
    destruct (rconv_view J k (wraps 16) ObjFirst id b1 123 ([58; 123] ++ type_text I16 ++ tail) rest [TopLevel; TopLevel] (rdy k Kl _ _) H64)
      as (b3 & p3 & -> & V3).
    { now apply wraps_id. }
    { exact V1. }
    { cbn; tauto. }
    cbn [obind after_value].
    destruct (ObjectStart_view NextValue k b3 p3 (type_text I16 ++ tail) rest [TopLevel; TopLevel] (rdy k Kl _ _) V3) as (b4 & -> & V4).
    cbn [obind].
    destruct (ReadString_type ObjFirst I16 k b4 123 tail rest [NextValue; TopLevel; TopLevel] (rdy k Kl _ _) V4) as (b5 & -> & V5).
    { unfold tail. reflexivity. }
    cbn [obind after_value]. eauto. }
  destruct E2 as (b2 & E2 & V2).
  destruct (not_null k b2 34 tail rest V2) as (b3 & E3 & V3); [reflexivity|unfold tail; cbn; lia|].
  exists (b3, [NextValue; NextValue; TopLevel; TopLevel]).
  transitivity ((_ <-- hwrap (hlift (rStructBegin (jsonR J))) ;;
      attrs <-- gread_fields (jsonR J) x M cf (S f) ms (map (fun m => (m_id m, m_init m)) ms) ;;
      _ <-- hwrap (hdo (rStructEnd (jsonR J))) ;;
      hret (AStruct 0 name (fc_of ms) attrs)) (json_r r)); [reflexivity|].
  erewrite hl by (change (rStructBegin (jsonR J)) with ReadStructBegin; unfold ReadStructBegin, json_r; rewrite E1; reflexivity).
  assert (Eg : gread_fields (jsonR J) x M cf (S f) ms (map (fun m => (m_id m, m_init m)) ms) (b1, [ObjFirst; TopLevel; TopLevel]) =
            Ok (inl (map (fun m => (m_id m, m_init m)) ms), (b2, [NextValue; NextValue; TopLevel; TopLevel]))).
  { rewrite gread_fields_S. erewrite hl by exact E2. reflexivity. }
  rewrite (hb _ _ _ _ _ _ _ Eg).
  unfold hbind, hwrap, hdo. change (rStructEnd (jsonR J)) with (parse_end is_key 125). unfold parse_end. rewrite E3. reflexivity.
Qed.
Print Assumptions C71_i16_first.

(** All hypotheses for a value with members of most types, in three pieces. *)
Definition v71 : any := AStruct 0 [79] (fc_of ms_outer)
  [ (4, mk_enum 1 [67] [([82], 1); ([71], 2)] 2)
  ; (1, ABool true)
  ; (2, AStr (lit "a""b"))
  ; (3, AList 0 STRUCT [v_inner (-5) 7; v_inner 6 7])
  ; (5, ASet 0 I64 1 [AInt64 (- 2 ^ 63)])
  ; (6, AMap 0 STRING LIST 0 [] [(AStr [120], AList 0 DOUBLE [AF64 (2 ^ 62)]); (AStr [121], AList 0 DOUBLE [])])
  ; (9, ANil) ].
Definition w71 : tval :=
  VStruct [(1, VBool true); (2, VStr (lit "a""b")); (3, VList STRUCT [VStruct [(1, VI32 (-5))]; VStruct [(1, VI32 6)]]);
           (4, VI32 2); (5, VSet I64 [VI64 (- 2 ^ 63)]);
           (6, VMap STRING LIST [(VStr [120], VList DOUBLE [VDouble (2 ^ 62)]); (VStr [121], VList DOUBLE [])])].
Definition doc71 : bytes :=
  lit "{""1"":{""tf"":true},""2"":{""str"":""a\""b""},""3"":{""lst"":[12,2,{""1"":{""i32"":-5}},{""1"":{""i32"":6}}]},""4"":{""i32"":2},""5"":{""set"":[10,1,-9223372036854775808]},""6"":{""map"":[""str"",""lst"",2,""x"",[4,1,4611686018427387904],""y"",[4,0]]}}".
Lemma extj_orders : orders extj.
Proof. intros tag l. apply Permutation_refl. Qed.
Lemma kept71 : kept extj ty_outer v71.
Proof.
  constructor; [reflexivity| |].
  - intros m Hm G. cbn in Hm.
    repeat match goal with H : _ \/ _ |- _ => destruct H as [<-|Hm] end; try destruct Hm; cbn in G; try discriminate; cbn.
    + constructor. concrete.
    + constructor.
    + constructor; [concrete|cbn; lia].
    + constructor; [exact I|cbn; lia|]. intros u [<-|[<-|[]]]; apply inner_kept; concrete.
    + constructor; [exact I|cbn; lia|left; discriminate|]. intros u [<-|[]]. constructor. concrete.
    + constructor; [exact I|cbn; lia|nodup| | |]; cbn [map fst snd].
      * intros u [<-|[<-|[]]]; (constructor; [left; reflexivity|concrete]).
      * intros u [<-|[<-|[]]]; (constructor; [concrete|cbn; lia]).
      * intros u [<-|[<-|[]]]; (constructor; [exact I|cbn; lia|]); intros d Hd; cbn in Hd;
          [destruct Hd as [<-|[]]; constructor; concrete|destruct Hd].
  - intros m Hm G. cbn in Hm.
    repeat match goal with H : _ \/ _ |- _ => destruct H as [<-|Hm] end; try destruct Hm; cbn in G; try discriminate; cbn;
      constructor; reflexivity.
Qed.
Example C71_ex : orders extj /\ schema_ok ty_outer /\ no_binary ty_outer /\ kept extj ty_outer v71 /\
  wireof extj ty_outer v71 w71 /\ plain_val J0 Short w71 /\ canon w71 = w71 /\
  gwrite (jsonW J0) extj 30 ty_outer v71 (json_w (MkWt [] [])) = Ok (None, (MkWt doc71 [], [TopLevel; TopLevel])) /\
  readable Short doc71 [] [(firstn 8 doc71, None); (firstn 20 (skipn 8 doc71), None); (skipn 28 doc71, None)] /\
  match gread (jsonR J0) extj 64 5 30 ty_outer (json_r [(firstn 8 doc71, None); (firstn 20 (skipn 8 doc71), None); (skipn 28 doc71, None)]) with
  | Ok (inl (AStruct _ _ _ attrs), _) => attribute attrs 2 = AStr (lit "a""b") /\ attribute attrs 9 = ANil
  | _ => False
  end.
Proof.
  pose proof ascii_utf8 as T.
  split; [exact extj_orders|]. split; [exact outer_ok|]. split.
  { constructor. intros m Hm. cbn in Hm.
    repeat (destruct Hm as [<-|Hm]; [cbn; repeat constructor; intros m [<-|[<-|[]]]; repeat constructor|]).
    destruct Hm. }
  split; [exact kept71|]. split.
  { constructor. cbn [ms_outer sorted_members insert_m m_id Z.ltb].
    repeat first [ apply wof_nil | apply wof_take; [reflexivity|concrete| |] | apply wof_skip; [reflexivity|]
                 | apply wo_bool | apply wo_enum; concrete
                 | apply (wo_list _ TyI32); [cbn; lia|] | apply (wo_list _ ty_inner); [cbn; lia|] | apply (wo_list _ TyDouble); [cbn; lia|]
                 | apply (wo_set _ TyI64); [left; discriminate|cbn; lia|]
                 | eapply (wo_map _ TyString (TyList TyDouble)); [reflexivity|reflexivity|cbn; lia|]
                 | apply wo_struct; cbn [sorted_members insert_m m_id Z.ltb]
                 | apply wos_nil | apply wos_cons | apply wom_nil | apply wom_cons
                 | apply wo_i32; concrete | apply wo_i16; concrete | apply wo_i64; concrete
                 | apply wo_double; concrete | apply wo_string; [concrete|vm_compute; reflexivity] ]. }
  split.
  { cbn -[I16 lit Z.pow]. repeat split; try discriminate; try (apply T; reflexivity).
    right; right; right. split; [apply number_format; concrete|vm_compute; reflexivity]. }
  split; [concrete|]. split; [concrete|]. split.
  { split; [concrete|]. split; [reflexivity|]. split; [vm_compute; lia|]. repeat (constructor; [vm_compute; reflexivity|]). constructor. }
  vm_compute. split; reflexivity.
Qed.

(** An unknown field between known ones. *)
Example C71_unknown_ex :
  let fs := [(1, VI32 7); (77, VMap STRING LIST [(VStr [120], VList BOOL [VBool true])])] in
  schema_ok ty_inner /\ no_binary ty_inner /\ wf (VStruct fs) /\ plain_val J0 Short (VStruct fs) /\
  canon (VStruct fs) = VStruct fs /\
  reads extj 5 ty_inner (VStruct (filter (known [Mem 1 (nm 97) false None TyI32; Mem 2 (nm 98) true (Some (AInt16 7)) TyI16]) fs))
    (AStruct 0 [73] (fc_of [Mem 1 (nm 97) false None TyI32; Mem 2 (nm 98) true (Some (AInt16 7)) TyI16]) [(1, AInt32 7); (2, AInt16 7)]) /\
  readable Short (vtext J0 (VStruct fs)) [] [(vtext J0 (VStruct fs), None)].
Proof.
  cbv zeta. split; [exact inner_ok|]. split; [constructor; intros m [<-|[<-|[]]]; constructor|].
  split; [concrete|]. split.
  { cbn -[I16]. repeat split; try discriminate. now apply ascii_utf8. }
  split; [concrete|]. split.
  { cbn [filter known existsb fst m_id Z.eqb Pos.eqb orb]. constructor.
    eapply ref_known; [left; reflexivity|reflexivity|constructor|constructor]. }
  apply one_chunk; [discriminate|vm_compute; lia|reflexivity].
Qed.

Definition m_bin : Gen.member := Mem 1 (nm 97) false None TyBinary.
Definition m_i16 : Gen.member := Mem 1 (nm 97) false None TyI16.
(** The hypotheses of C71_i16_first. *)
Example C71_i16_ex :
  no_binary (TyStruct [83] [m_i16]) /\ wireof extj (TyStruct [83] [m_i16]) (one m_i16 (AInt16 5)) (VStruct [(1, VI16 5)]) /\
  vtext J0 (VStruct [(1, VI16 5)]) = lit "{""1"":{""i16"":5}}" /\
  readable Short (lit "{""1"":{""i16"":5}}") [] [(lit "{""1"":{""i16"":5}}", None)].
Proof.
  split; [constructor; intros m [<-|[]]; constructor|]. split.
  { constructor. cbn [sorted_members insert_m]. apply wof_take; [reflexivity|concrete|constructor; concrete|constructor]. }
  split; [reflexivity|]. apply one_chunk; [discriminate|vm_compute; lia|reflexivity].
Qed.
(** Neither is a binary member read back, though it is written without an error: its type has no name at all. *)
Theorem C71_refuted : exists t v1 v2 doc1 doc2 e1 e2 s1 s2,
  (schema_ok t /\ kept extj t v1 /\ t = TyStruct [83] [m_bin]) /\
  (schema_ok (TyStruct [83] [m_i16]) /\ kept extj (TyStruct [83] [m_i16]) v2) /\
  gwrite (jsonW J0) extj 30 t v1 (json_w (MkWt [] [])) = Ok (None, (MkWt doc1 [], [TopLevel; TopLevel])) /\
  doc1 = lit "{""1"":{"""":""AQI=""}}" /\
  gread (jsonR J0) extj 64 5 30 t (json_r [(doc1, None)]) = Ok (inr e1, s1) /\
  gwrite (jsonW J0) extj 30 (TyStruct [83] [m_i16]) v2 (json_w (MkWt [] [])) = Ok (None, (MkWt doc2 [], [TopLevel; TopLevel])) /\
  gread (jsonR J0) extj 64 5 30 (TyStruct [83] [m_i16]) (json_r [(doc2, None)]) = Ok (inr e2, s2).
Proof.
  exists (TyStruct [83] [m_bin]), (one m_bin (ABytes [1; 2])), (one m_i16 (AInt16 5)). do 6 eexists.
  split; [split; [|split; [|reflexivity]]|split; [split|]].
  - constructor; [members|]. intros m [<-|[]]. constructor.
  - constructor; [reflexivity| |]; intros m [<-|[]] G; [constructor; [concrete|cbn; lia]|discriminate G].
  - constructor; [members|]. intros m [<-|[]]. constructor.
  - constructor; [reflexivity| |]; intros m [<-|[]] G; [constructor; concrete|discriminate G].
  - split; [vm_compute; reflexivity|]. split; [reflexivity|]. split; [vm_compute; reflexivity|]. split; [vm_compute; reflexivity|]. vm_compute. reflexivity.
Qed.
Print Assumptions C71_refuted.
