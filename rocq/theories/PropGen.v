(** Properties of generated struct code: C48 - C51. *)
From Coq Require Import ZArith List Bool Lia Permutation.
From Coq Require Import ZifyBool ZifyNat.
From Verif Require Import Base Errors Transport Proto Arith Values BinaryProofs BinarySpec Binary TransportProofs Compact
  CompactSpec CompactStruct CompactExact WfDec.
From Verif Require Import F64 Strconv TField GoVal Compare CompareProofs TList TSet TMap
  Gen GenSpec GenProofs GenInst GenRound.
Import ListNotations.
Open Scope Z_scope.
Ltac Zify.zify_post_hook ::= Z.div_mod_to_equations.

(** ** Vocabulary *)

(** The library's map iteration order is some order of the entries. *)
Definition orders (x : ext) : Prop := forall tag l, Permutation l (x_order x tag l).
Definition ext0 : ext :=
  MkExt (fun _ => []) (fun _ => []) (fun _ => (0, None)) (fun _ => 0) (fun _ l => rev l) (fun _ _ => false).
Lemma ext0_orders : orders ext0.
Proof. intros tag l. apply Permutation_rev. Qed.

(** ** Shared steps *)

Lemma bin_write : forall strict x t v w f o, wireof x t v w -> (need w <= f)%nat ->
  gwrite (binaryW strict) x f t v (MkWt o []) = Ok (None, MkWt (o ++ sb_val w) []).
Proof.
  intros strict x t v w f o W N.
  eapply (proj1 (wr_gwrite_all (binaryW strict) x true)); [exact W|discriminate| |exact N].
  apply bwr_val. eapply wireof_wf. exact W.
Qed.
Lemma bin_read : forall strict x M cf t w v f r rest, wf w -> reads x cf t w v -> schema_ok t ->
  (need w <= f)%nat -> benign r -> content r = sb_val w ++ rest ->
  exists r', gread (binaryR strict) x M cf f t r = Ok (inl v, r') /\ benign r' /\ content r' = rest.
Proof.
  intros strict x M cf t w v f r rest Hw R So N B C.
  destruct (brd_val strict w Hw r rest B C) as (r' & Rd & B' & C').
  exists r'. split; [|auto]. eapply (proj1 (rd_gread_all (binaryR strict) true x M cf)); try eassumption. discriminate.
Qed.
Lemma cmp_write : forall x t v w f o c, wireof x t v w -> no_binary t -> (need w <= f)%nat ->
  booleanField c = None ->
  gwrite compactW x f t v (MkWt o [], c) = Ok (None, (MkWt (o ++ sc_val w) [], c)).
Proof.
  intros x t v w f o [stk last bf bv nn] W Nb N E. cbn in E. subst bf.
  eapply (proj1 (wr_gwrite_all compactW x false)); [exact W|intros _; exact Nb| |exact N].
  apply cwr_val. eapply wireof_wf. exact W.
Qed.
Lemma cmp_read : forall x M cf t w v f r c rest, wf w -> no_false_field w = true ->
  ids_kept w = true -> reads x cf t (untyped_empty w) v -> schema_ok t ->
  (need w <= f)%nat -> boolValueIsNotNull c = false -> benign r -> content r = sc_val w ++ rest ->
  exists r' c', gread compactR x M cf f t (r, c) = Ok (inl v, (r', c')) /\
    benign r' /\ content r' = rest.
Proof.
  intros x M cf t w v f r c rest Hw F A R So N Bv B C.
  destruct (crd_val w c r rest Hw F A Bv B C) as (r' & c' & Rd & B' & _ & C').
  exists r', c'. split; [|auto].
  eapply (proj1 (rd_gread_all compactR true x M cf)); try eassumption; [discriminate|]. rewrite need_ue. exact N.
Qed.

(** ** C48 *)

(** A value for which [kept] holds is written, and what was written is read back with the same
    contents, whatever follows in the stream and however it is cut into reads; the reader stops
    right after it.  [kept] asks: members of list and set type not directly of enum or binary
    elements, sets of at most one element, map keys of scalar types, and that each member which
    the writer leaves out holds its initial value (C48_members says which do).
    Missing: what [kept] excludes; see the refutations. *)
Theorem C48_binary_round_trip_partial : forall strict x M cf t v,
  orders x -> schema_ok t -> kept x t v ->
  exists bs n, forall f, (n <= f)%nat ->
    (forall o, gwrite (binaryW strict) x f t v (MkWt o []) = Ok (None, MkWt (o ++ bs) [])) /\
    forall r rest, benign r -> content r = bs ++ rest ->
    exists v' r', gread (binaryR strict) x M cf f t r = Ok (inl v', r') /\ same v v' /\
      benign r' /\ content r' = rest.
Proof.
  intros strict x M cf t v Ho So K. destruct (kept_round x cf Ho t v K So) as (w & W & R).
  exists (sb_val w), (need w). intros f N. split; [intros; apply bin_write; assumption|].
  intros r rest B C. destruct (R false) as (v' & R1 & S1).
  destruct (bin_read strict x M cf t w v' f r rest) as (r' & G & B' & C'); try assumption.
  { eapply wireof_wf. exact W. }
  exists v', r'. auto.
Qed.
Print Assumptions C48_binary_round_trip_partial.

(** With the compact protocol: types without binary (see below), and values whose wire form [w]
    has no false member and keeps its ids (C18, C19).
    Missing: those exclusions on top of the ones for binary. *)
Theorem C48_compact_round_trip_partial : forall x M cf t v w,
  orders x -> schema_ok t -> no_binary t -> kept x t v ->
  wireof x t v w -> no_false_field w = true -> ids_kept w = true ->
  exists bs n, forall f, (n <= f)%nat ->
    (forall o c, booleanField c = None ->
       gwrite compactW x f t v (MkWt o [], c) = Ok (None, (MkWt (o ++ bs) [], c))) /\
    forall r rest c, benign r -> content r = bs ++ rest -> boolValueIsNotNull c = false ->
    exists v' r' c', gread compactR x M cf f t (r, c) = Ok (inl v', (r', c')) /\ same v v' /\
      benign r' /\ content r' = rest.
Proof.
  intros x M cf t v w Ho So Nb K W F A. destruct (kept_round x cf Ho t v K So) as (w' & W' & R).
  assert (E : w' = w) by (eapply wireof_fun; eassumption). subst w'.
  exists (sc_val w), (need w). intros f N. split; [intros; apply cmp_write; assumption|].
  intros r rest c B C Bv. destruct (R true) as (v' & R1 & S1).
  destruct (cmp_read x M cf t w v' f r c rest) as (r' & c' & G & B' & C'); try assumption.
  { eapply wireof_wf. exact W. }
  exists v', r', c'. auto.
Qed.
Print Assumptions C48_compact_round_trip_partial.

(** A schema with most kinds of members, and a value of it. *)
Definition nm (c : Z) : bytes := [c].
Definition ty_color : ty := TyEnum 1 [67] [([82], 1); ([71], 2)].
Definition ty_inner : ty :=
  TyStruct [73] [Mem 1 (nm 97) false None TyI32; Mem 2 (nm 98) true (Some (AInt16 7)) TyI16].
Definition ms_outer : list member :=
  [ Mem 4 (nm 103) false None ty_color
  ; Mem 1 (nm 97) false None TyBool
  ; Mem 2 (nm 98) true None TyString
  ; Mem 3 (nm 99) false None (TyList ty_inner)
  ; Mem 5 (nm 101) true None (TySet TyI64)
  ; Mem 6 (nm 102) false None (TyMap TyString (TyList TyDouble))
  ; Mem 9 (nm 105) true None ty_inner ].
Definition ty_outer : ty := TyStruct [79] ms_outer.
Definition v_inner (a b : Z) : any := AStruct 0 [73] (fc_of []) [(1, AInt32 a); (2, AInt16 b)].
Definition v_outer : any := AStruct 0 [79] (fc_of ms_outer)
  [ (4, mk_enum 1 [67] [([82], 1); ([71], 2)] 2)
  ; (1, ABool true)
  ; (2, AStr [])
  ; (3, AList 0 STRUCT [v_inner (-5) 7; v_inner 6 8])
  ; (5, ASet 0 I64 1 [AInt64 (- 2 ^ 63)])
  ; (6, AMap 0 STRING LIST 0 [] [(AStr [120], AList 0 DOUBLE [AF64 (2 ^ 63)]); (AStr [121], AList 0 DOUBLE [])])
  ; (9, ANil) ].

Lemma inner_kept : forall x a b, in_s 32 a -> in_s 16 b -> kept x ty_inner (v_inner a b).
Proof.
  intros x a b Ha Hb. constructor; [reflexivity| |].
  - intros m [<-|[<-|[]]] _; constructor; assumption.
  - intros m [<-|[<-|[]]] G; cbn in G; [discriminate|]. cbn.
    assert (b = 7) by lia. subst b. constructor. reflexivity.
Qed.
Ltac nodup := repeat (constructor; [cbn; intuition discriminate|]); constructor.
Ltac members :=
  split; [nodup|split; [nodup|intros m Hm; cbn in Hm;
    repeat (destruct Hm as [<-|Hm]; [cbn; split; [discriminate|lia]|]); destruct Hm]].
Lemma inner_ok : schema_ok ty_inner.
Proof. constructor; [members|]. intros m [<-|[<-|[]]]; constructor. Qed.
Lemma outer_ok : schema_ok ty_outer.
Proof.
  constructor; [members|]. intros m Hm. cbn in Hm.
  repeat (destruct Hm as [<-|Hm]; [cbn; repeat (apply inner_ok || constructor)|]). destruct Hm.
Qed.
Lemma outer_kept : forall x, kept x ty_outer v_outer.
Proof.
  intros x. constructor; [reflexivity| |].
  - intros m Hm G. cbn in Hm.
    repeat match goal with H : _ \/ _ |- _ => destruct H as [<-|Hm] end; try destruct Hm; cbn in G; try discriminate; cbn.
    + constructor. concrete.
    + constructor.
    + constructor; [exact I|cbn; lia|]. intros u [<-|[<-|[]]]; apply inner_kept; concrete.
    + constructor; [exact I|cbn; lia|left; discriminate|]. intros u [<-|[]]. constructor. concrete.
    + constructor; [exact I|cbn; lia|nodup| | |]; cbn [map fst snd].
      * intros u [<-|[<-|[]]]; (constructor; [left; reflexivity|concrete]).
      * intros u [<-|[<-|[]]]; (constructor; [concrete|cbn; lia]).
      * intros u [<-|[<-|[]]]; (constructor; [exact I|cbn; lia|]); intros d Hd; cbn in Hd;
          [destruct Hd as [<-|[]]; constructor; concrete|destruct Hd].
  - intros m Hm G. cbn in Hm.
    repeat match goal with H : _ \/ _ |- _ => destruct H as [<-|Hm] end; try destruct Hm; cbn in G; try discriminate; cbn;
      constructor; reflexivity.
Qed.
Definition b_outer : bytes :=
  [2; 0; 1; 1; 15; 0; 3; 12; 0; 0; 0; 2; 8; 0; 1; 255; 255; 255; 251; 0; 8; 0; 1; 0; 0; 0; 6; 6; 0; 2;
   0; 8; 0; 8; 0; 4; 0; 0; 0; 2; 14; 0; 5; 10; 0; 0; 0; 1; 128; 0; 0; 0; 0; 0; 0; 0; 13; 0; 6; 11; 15;
   0; 0; 0; 2; 0; 0; 0; 1; 121; 4; 0; 0; 0; 0; 0; 0; 0; 1; 120; 4; 0; 0; 0; 1; 128; 0; 0; 0; 0; 0; 0;
   0; 0].
Example C48_case :
  orders ext0 /\ schema_ok ty_outer /\ kept ext0 ty_outer v_outer /\ no_binary ty_outer /\
  gwrite (binaryW true) ext0 20 ty_outer v_outer (MkWt [] []) = Ok (None, MkWt b_outer []) /\
  (exists v', gread (binaryR true) ext0 64 5 30 ty_outer [(firstn 7 b_outer, None); (skipn 7 b_outer ++ [99], None)]
     = Ok (inl v', [([99], None)])) /\
  exists w, wireof ext0 ty_outer v_outer w /\ no_false_field w = true /\ ids_kept w = true.
Proof.
  split; [exact ext0_orders|]. split; [exact outer_ok|]. split; [apply outer_kept|].
  split.
  { constructor. intros m Hm. cbn in Hm.
    repeat (destruct Hm as [<-|Hm]; [cbn; repeat constructor; intros m [<-|[<-|[]]]; repeat constructor|]).
    destruct Hm. }
  split; [vm_compute; reflexivity|]. split; [eexists; vm_compute; reflexivity|].
  eexists. split.
  { constructor. cbn [ms_outer sorted_members insert_m m_id Z.ltb].
    repeat first [ apply wof_nil | apply wof_take; [reflexivity|concrete| |] | apply wof_skip; [reflexivity|]
                 | apply wo_bool | apply wo_enum; concrete
                 | apply wo_list; [cbn; lia|] | apply wo_set; [left; discriminate|cbn; lia|]
                 | eapply wo_map; [reflexivity|reflexivity|cbn; lia|]
                 | apply wo_struct; cbn [sorted_members insert_m m_id Z.ltb]
                 | apply wos_nil | apply wos_cons | apply wom_nil | apply wom_cons
                 | apply wo_i32; concrete | apply wo_i16; concrete | apply wo_i64; concrete
                 | apply wo_double; concrete | apply wo_string; [concrete|cbn; lia] ]. }
  split; vm_compute; reflexivity.
Qed.

(** Which member values come back: the conditions of [kept] on a member, case by case. *)
Definition comes_back (x : ext) (m : member) (v : any) : Prop :=
  (gemits m v = true -> kept x (m_ty m) v) /\ (gemits m v = false -> same v (m_init m)).
Definition base_ty (t : ty) : Prop :=
  match t with
  | TyBool | TyByte | TyI16 | TyI32 | TyI64 | TyDouble | TyString => True
  | _ => False
  end.
Definition init_of (m : member) : any := match m_def m with Some d => d | None => go_zero (m_ty m) end.

Lemma base_eq : forall x t v d, base_ty t -> kept x t v -> kept x t d ->
  base_differs v d = false -> v = d \/ exists a b, v = AF64 a /\ d = AF64 b /\ f64_eq a b = true.
Proof.
  intros x t v d Hb Kv Kd E.
  destruct Kv; try destruct Hb; inversion Kd; subst; cbn [base_differs] in E.
  - left. f_equal. destruct b, b0; cbn in E; congruence.
  - left. f_equal. lia.
  - left. f_equal. lia.
  - left. f_equal. lia.
  - left. f_equal. lia.
  - right. eexists _, _. split; [reflexivity|]. split; [reflexivity|].
    destruct (f64_eq z z0); [reflexivity|discriminate].
  - left. f_equal. apply negb_false_iff in E. apply str_eq_iff. exact E.
Qed.
Lemma zero_kept : forall x t, base_ty t -> kept x t (go_zero t).
Proof.
  intros x t H. destruct t; destruct H; cbn; constructor; unfold in_u, in_s; cbn; try lia. constructor.
Qed.

Theorem C48_members : forall x m v,
  (* scalar members, required or optional: every value, but an optional double must not equal
     the default without being it (-0.0 and 0.0) *)
  (base_ty (m_ty m) -> kept x (m_ty m) v ->
   (forall d, m_def m = Some d -> kept x (m_ty m) d) ->
   (m_opt m = true -> forall a b, v = AF64 a -> init_of m = AF64 b -> f64_eq a b = true -> a = b) ->
   comes_back x m v) /\
  (* enum members: every int32 value; unset, if there is no default *)
  (forall tag n cs, m_ty m = TyEnum tag n cs ->
   (forall z, in_s 32 z -> comes_back x m (mk_enum tag n cs z)) /\
   (m_def m = None -> comes_back x m (mk_enum tag n cs enum_unset))) /\
  (* binary and struct members: every value; nil, if there is no default *)
  (can_be_nil (m_ty m) = true -> m_def m = None -> comes_back x m ANil) /\
  (m_ty m = TyBinary \/ (exists n ms, m_ty m = TyStruct n ms) -> kept x (m_ty m) v -> comes_back x m v) /\
  (* containers: required ones, and optional ones that are not empty *)
  (can_be_nil (m_ty m) = true -> kept x (m_ty m) v -> m_opt m = false \/ 0 < any_len v ->
   comes_back x m v).
Proof.
  intros x m v. split; [|split; [|split; [|split]]].
  - intros Hb K Kd Hf. split; [intros _; exact K|]. intros G.
    assert (Ki : kept x (m_ty m) (init_of m)).
    { unfold init_of. destruct (m_def m) as [d|] eqn:D; [apply Kd; reflexivity|apply zero_kept, Hb]. }
    assert (Ei : m_init m = init_of m).
    { unfold m_init, init_of. destruct (m_def m); [reflexivity|]. destruct (m_ty m); destruct Hb; reflexivity. }
    assert (E : m_opt m = true /\ base_differs v (init_of m) = false).
    { unfold gemits, gisset, init_of in *. destruct (m_ty m); destruct Hb; cbn [can_be_nil negb orb andb] in G;
        rewrite orb_false_r in G; destruct (m_opt m); cbn [negb orb] in G; try discriminate; auto. }
    destruct E as [Eo Eb]. rewrite Ei.
    assert (Ev : v = init_of m).
    { destruct (base_eq x _ _ _ Hb K Ki Eb) as [Ev|(a & b & Ea & Ed & Ef)]; [exact Ev|].
      rewrite Ea, Ed. f_equal. eapply Hf; eassumption. }
    rewrite <- Ev. constructor. destruct K; destruct Hb; reflexivity.
  - intros tag n cs Et. split.
    + intros z Hz. split; [intros _; rewrite Et; constructor; exact Hz|]. intros G. exfalso.
      unfold gemits, gisset in G. rewrite Et in G. cbn [can_be_nil negb orb andb mk_enum] in G.
      rewrite orb_true_r in G. cbn [negb orb] in G. unfold enum_unset in G. unfold in_s in Hz.
      change (2 ^ (32 - 1)) with 2147483648 in Hz. lia.
    + intros D. split.
      * intros G. exfalso. unfold gemits, gisset in G. rewrite Et in G. cbn [can_be_nil negb orb andb mk_enum] in G.
        rewrite orb_true_r in G. discriminate.
      * intros _. unfold m_init. rewrite D, Et. constructor. reflexivity.
  - intros Hn D. split.
    + intros G. unfold gemits in G. rewrite Hn in G. discriminate.
    + intros _. unfold m_init. rewrite D. destruct (m_ty m); try discriminate; constructor; reflexivity.
  - intros Ht K. split; [intros _; exact K|]. intros G. exfalso.
    assert (Nn : is_nil v = false) by (destruct K; reflexivity).
    unfold gemits, gisset in G. rewrite Nn in G.
    destruct Ht as [Ht|(n & ms & Ht)]; rewrite Ht in G; cbn in G; rewrite orb_true_r in G; discriminate.
  - intros Hn K Ho. split; [intros _; exact K|]. intros G. exfalso.
    assert (Nn : is_nil v = false) by (destruct K; reflexivity).
    assert (Hs : m_opt m = false \/ gisset m v = true).
    { destruct Ho as [Ho|Ho]; [left; exact Ho|right]. unfold gisset.
      assert (Lt : (0 <? any_len v) = true) by lia.
      destruct (m_ty m); try discriminate; try (rewrite Nn; reflexivity);
        rewrite Nn, Lt; destruct (m_def m) as [d|]; try destruct (0 <? any_len d); reflexivity. }
    unfold gemits in G. rewrite Nn, orb_true_r in G. cbn [andb] in G.
    destruct Hs as [Hs|Hs]; rewrite Hs in G; [|rewrite orb_true_r in G; discriminate].
    destruct (m_ty m); discriminate.
Qed.
Print Assumptions C48_members.
Example C48_members_case :
  base_ty TyI32 /\ kept ext0 TyI32 (AInt32 0) /\
  gemits (Mem 1 (nm 97) true (Some (AInt32 5)) TyI32) (AInt32 0) = true /\
  gemits (Mem 1 (nm 97) true (Some (AInt32 5)) TyI32) (AInt32 5) = false /\
  kept ext0 (TyList TyI32) (AList 0 I32 [AInt32 1]) /\ 0 < any_len (AList 0 I32 [AInt32 1]).
Proof.
  split; [exact I|]. split; [constructor; concrete|]. split; [reflexivity|]. split; [reflexivity|].
  split; [|cbn; lia]. constructor; [exact I|cbn; lia|]. intros u [<-|[]]. constructor. concrete.
Qed.

(** Write with the binary protocol, read back. *)
Definition rw (t : ty) (v : any) : outcome ((any + err) * rt) :=
  '(e, s) <- gwrite (binaryW true) ext0 30 t v (MkWt [] []) ;;
  match e with
  | None => gread (binaryR true) ext0 64 30 30 t [(w_out s, None)]
  | Some e => Ok (inr e, [])
  end.
Definition one (m : member) (v : any) : any := AStruct 0 [83] (fc_of [m]) [(m_id m, v)].
Definition rw1 (m : member) (v : any) := rw (TyStruct [83] [m]) (one m v).

(** A set of two: only the first element written survives. *)
Theorem C48_set_refuted : exists m v,
  rw1 m v = Ok (inl (one m (ASet 0 I32 2 [AInt32 2])), []) /\
  v = ASet 0 I32 0 [AInt32 2; AInt32 1].
Proof.
  exists (Mem 1 (nm 97) false None (TySet TyI32)), (ASet 0 I32 0 [AInt32 2; AInt32 1]).
  split; [vm_compute; reflexivity|reflexivity].
Qed.
Print Assumptions C48_set_refuted.

(** A list of enums comes back as a list of int32 whose values are what ParseInt leaves of the
    constants' labels: 0.  Writing that list again panics. *)
Theorem C48_list_enum_refuted : exists m v v',
  v = AList 0 I32 [mk_enum 1 [67] [([82], 1); ([71], 2)] 2] /\
  v' = AList 0 I32 [AInt32 0] /\
  rw1 m v = Ok (inl (one m v'), []) /\ rw1 m v' = Panic.
Proof.
  exists (Mem 1 (nm 97) false None (TyList ty_color)). eexists _, _.
  split; [reflexivity|]. split; [reflexivity|]. split; vm_compute; reflexivity.
Qed.
Print Assumptions C48_list_enum_refuted.

(** An optional member holding an empty container comes back nil. *)
Theorem C48_empty_optional_refuted : exists m v,
  v = AList 0 I32 [] /\ rw1 m v = Ok (inl (one m ANil), []).
Proof.
  exists (Mem 1 (nm 97) true None (TyList TyI32)). eexists. split; [reflexivity|vm_compute; reflexivity].
Qed.
Print Assumptions C48_empty_optional_refuted.

(** An unset member with a default comes back set to the default: enums, and containers made
    nil. *)
Theorem C48_unset_refuted : exists m1 m2 d1 d2,
  d1 = mk_enum 1 [67] [([82], 1); ([71], 2)] 2 /\ d2 = AList 0 I32 [AInt32 3] /\
  rw1 m1 (mk_enum 1 [67] [([82], 1); ([71], 2)] enum_unset) = Ok (inl (one m1 d1), []) /\
  rw1 m2 ANil = Ok (inl (one m2 d2), []).
Proof.
  exists (Mem 1 (nm 97) true (Some (mk_enum 1 [67] [([82], 1); ([71], 2)] 2)) ty_color),
         (Mem 1 (nm 97) true (Some (AList 0 I32 [AInt32 3])) (TyList TyI32)).
  eexists _, _. split; [reflexivity|]. split; [reflexivity|]. split; vm_compute; reflexivity.
Qed.
Print Assumptions C48_unset_refuted.

(** An optional double holding -0.0 comes back as 0.0. *)
Theorem C48_negative_zero_refuted : exists m,
  rw1 m (AF64 (2 ^ 63)) = Ok (inl (one m (AF64 0)), []).
Proof. exists (Mem 1 (nm 97) true None TyDouble). vm_compute. reflexivity. Qed.
Print Assumptions C48_negative_zero_refuted.

(** A binary member cannot be written with the compact protocol at all: TType BINARY is outside
    its table. *)
Theorem C48_compact_binary_refuted : exists m b,
  b <> [] /\ gwrite compactW ext0 30 (TyStruct [83] [m]) (one m (ABytes b)) (MkWt [] [], cinit) = Panic.
Proof. exists (Mem 1 (nm 97) false None TyBinary), [1; 2]. split; [discriminate|vm_compute; reflexivity]. Qed.
Print Assumptions C48_compact_binary_refuted.

(** ** C49 *)

Definition known (ms : list member) (f : Z * tval) : bool := existsb (fun m => m_id m =? fst f) ms.
Lemma insert_unknown : forall x cf ms fs a a', readsf x cf ms a (filter (known ms) fs) a' ->
  readsf x cf ms a fs a'.
Proof.
  intros x cf ms. induction fs as [|[id w] fs IH]; intros a a' H; [exact H|].
  cbn [filter] in H. destruct (known ms (id, w)) eqn:K.
  - inversion H; subst; [eapply ref_known; eauto|eapply ref_unknown; eauto].
  - apply ref_unknown; [|apply IH, H]. intros m Hm E. unfold known in K. cbn [fst] in K.
    assert (X : existsb (fun m => m_id m =? id) ms = true); [|congruence].
    apply existsb_exists. exists m. split; [exact Hm|lia].
Qed.

(** Whatever fields with ids that are not members' are added, anywhere, of any type and value:
    if [v] is what the fields of the schema stand for, then reading the struct with the extra
    fields gives [v] and stops right after the struct, as reading it without them does. *)
Theorem C49_binary : forall strict x M cf name ms fs v f r1 r2 rest,
  schema_ok (TyStruct name ms) -> wf (VStruct fs) ->
  reads x cf (TyStruct name ms) (VStruct (filter (known ms) fs)) v ->
  (need (VStruct fs) <= f)%nat -> benign r1 -> benign r2 ->
  content r1 = sb_val (VStruct (filter (known ms) fs)) ++ rest ->
  content r2 = sb_val (VStruct fs) ++ rest ->
  exists r1' r2', content r1' = rest /\ content r2' = rest /\
    gread (binaryR strict) x M cf f (TyStruct name ms) r1 = Ok (inl v, r1') /\
    gread (binaryR strict) x M cf f (TyStruct name ms) r2 = Ok (inl v, r2').
Proof.
  intros strict x M cf name ms fs v f r1 r2 rest So Hw Rs N B1 B2 C1 C2.
  assert (Hw' : wf (VStruct (filter (known ms) fs))).
  { cbn [wf] in *. clear -Hw. induction fs as [|a fs IH]; [exact I|]. destruct Hw as [H1 H2].
    cbn [filter]. destruct (known ms a); [split|]; auto. }
  assert (N' : (need (VStruct (filter (known ms) fs)) <= need (VStruct fs))%nat).
  { cbn [need]. clear. induction fs as [|a fs IH]; [reflexivity|]. cbn [filter]. destruct (known ms a); cbn in *; lia. }
  destruct (bin_read strict x M cf (TyStruct name ms) _ v f r1 rest Hw' Rs So ltac:(lia) B1 C1) as (r1' & G1 & _ & E1).
  assert (Rs2 : reads x cf (TyStruct name ms) (VStruct fs) v).
  { inversion Rs; subst. constructor. apply insert_unknown. assumption. }
  destruct (bin_read strict x M cf (TyStruct name ms) _ v f r2 rest Hw Rs2 So N B2 C2) as (r2' & G2 & _ & E2).
  exists r1', r2'. auto.
Qed.
Print Assumptions C49_binary.

(** The same through a generated writer of the newer schema [ms2]: a reader that knows only the
    members [ms1] of it gets their contents. *)
Theorem C49_newer_writer : forall strict x M cf name2 ms2 name1 ms1 a fc attrs,
  orders x -> schema_ok (TyStruct name2 ms2) -> schema_ok (TyStruct name1 ms1) -> incl ms1 ms2 ->
  kept x (TyStruct name2 ms2) (AStruct a name2 fc attrs) ->
  exists bs n, forall f, (n <= f)%nat ->
    (forall o, gwrite (binaryW strict) x f (TyStruct name2 ms2) (AStruct a name2 fc attrs) (MkWt o []) =
       Ok (None, MkWt (o ++ bs) [])) /\
    forall r rest, benign r -> content r = bs ++ rest ->
    exists attrs' r', gread (binaryR strict) x M cf f (TyStruct name1 ms1) r =
        Ok (inl (AStruct 0 name1 (fc_of ms1) attrs'), r') /\
      content r' = rest /\ map fst attrs' = map m_id ms1 /\
      forall m, In m ms1 -> same (attribute attrs (m_id m)) (attribute attrs' (m_id m)).
Proof.
  intros strict x M cf name2 ms2 name1 ms1 a fc attrs Ho So2 So1 Hi K.
  destruct (subset_round x cf Ho name2 name1 ms2 ms1 a fc attrs K So2 Hi) as (w & W & R).
  exists (sb_val w), (need w). intros f N. split; [intros; apply bin_write; assumption|].
  intros r rest B C. destruct (R false) as (attrs' & R1 & E & S1).
  destruct (bin_read strict x M cf (TyStruct name1 ms1) w _ f r rest (wireof_wf _ _ _ _ W) R1 So1 N B C)
    as (r' & G & _ & C').
  exists attrs', r'. split; [exact G|]. split; [exact C'|]. split; [exact E|]. intros m Hm.
  apply S1; [exact Hm|]. inversion So1 as [| | | | | | | | | | | |? ? Mok Sok]; subst. apply Mok.
Qed.
Print Assumptions C49_newer_writer.

(** With the compact protocol, for streams as in C24.
    Missing: false members among the extra (or known) fields, deeper nesting. *)
Theorem C49_compact_partial : forall x M cf name ms fs v f r c rest,
  schema_ok (TyStruct name ms) -> wf (VStruct fs) ->
  no_false_field (VStruct fs) = true -> ids_kept (VStruct fs) = true ->
  reads x cf (TyStruct name ms) (untyped_empty (VStruct (filter (known ms) fs))) v ->
  (need (VStruct fs) <= f)%nat -> benign r -> boolValueIsNotNull c = false ->
  content r = sc_val (VStruct fs) ++ rest ->
  exists r' c', gread compactR x M cf f (TyStruct name ms) (r, c) = Ok (inl v, (r', c')) /\
    content r' = rest.
Proof.
  intros x M cf name ms fs v f r c rest So Hw F A Rs N B Bv C.
  assert (Rs2 : reads x cf (TyStruct name ms) (untyped_empty (VStruct fs)) v).
  { cbn [untyped_empty] in *. inversion Rs; subst. constructor. apply insert_unknown.
    replace (filter (known ms) (map (fun f0 => (fst f0, untyped_empty (snd f0))) fs))
      with (map (fun f0 => (fst f0, untyped_empty (snd f0))) (filter (known ms) fs)); [assumption|].
    clear. induction fs as [|[i u] fs IH]; [reflexivity|]. cbn [filter map fst].
    change (known ms (i, untyped_empty (snd (i, u)))) with (known ms (i, u)).
    destruct (known ms (i, u)); cbn [map fst]; rewrite IH; reflexivity. }
  destruct (cmp_read x M cf (TyStruct name ms) (VStruct fs) v f r c rest) as (r' & c' & G & _ & E); try assumption.
  exists r', c'. auto.
Qed.
Print Assumptions C49_compact_partial.
(** Without the condition on the ids: the generated reader sees the fields with the ids that
    TCompactProtocol reads (C24), and ignores those it does not know under these. *)
Theorem C49_compact_ids : forall x M cf name ms fs fs' v f r c rest,
  schema_ok (TyStruct name ms) -> wf (VStruct fs) -> no_false_field (VStruct fs) = true ->
  read_back (VStruct fs) = VStruct fs' ->
  reads x cf (TyStruct name ms) (VStruct (filter (known ms) fs')) v ->
  (need (VStruct fs) <= f)%nat -> benign r -> boolValueIsNotNull c = false ->
  content r = sc_val (VStruct fs) ++ rest ->
  exists r' c', gread compactR x M cf f (TyStruct name ms) (r, c) = Ok (inl v, (r', c')) /\
    content r' = rest.
Proof.
  intros x M cf name ms fs fs' v f r c rest So Hw F E Rs N B Bv C.
  assert (Rs2 : reads x cf (TyStruct name ms) (VStruct fs') v).
  { inversion Rs; subst. constructor. apply insert_unknown. assumption. }
  destruct (crd_back (VStruct fs) c r rest Hw F Bv B C) as (r' & c' & Rd & B' & _ & C').
  exists r', c'. split; [|exact C']. rewrite E in Rd.
  eapply (proj1 (rd_gread_all compactR true x M cf)); try eassumption; [discriminate|].
  rewrite <- E. unfold read_back. rewrite need_seen. exact N.
Qed.
Print Assumptions C49_compact_ids.
(** A newer writer's doubly nested struct in front: its members are misnumbered for the reader,
    which takes the field written under 5 for its own member 2. *)
Example C49_ids_ex :
  let fs := [(4, VStruct [(1, VStruct [(1, VByte 7)])]); (5, VI32 8)] in
  let ms := [Mem 2 (nm 97) false None TyI32] in
  schema_ok (TyStruct [83] ms) /\ wf (VStruct fs) /\ no_false_field (VStruct fs) = true /\
  exists fs', read_back (VStruct fs) = VStruct fs' /\ filter (known ms) fs' = [(2, VI32 8)] /\
    filter (known ms) fs = [].
Proof.
  cbv zeta. split; [|split; [concrete|split; [reflexivity|]]].
  - apply so_struct; [members|]. intros m [<-|[]]. constructor.
  - eexists. split; [vm_compute; reflexivity|]. split; reflexivity.
Qed.

(** A false member the reader does not know: the compact reader does not get to the end of the
    struct.  (C18, C25) *)
Theorem C49_compact_false_refuted : exists ms fs v c' e,
  reads ext0 5 (TyStruct [83] ms) (VStruct (filter (known ms) fs)) v /\ wf (VStruct fs) /\
  gread compactR ext0 64 5 30 (TyStruct [83] ms) ([(sc_val (VStruct fs), None)], cinit) = Ok (inr e, c').
Proof.
  exists [Mem 2 (nm 97) false None TyI32], [(1, VBool false); (2, VI32 5)]. eexists _, _, _.
  split.
  { cbn [filter known existsb m_id fst Z.eqb orb Pos.eqb]. constructor. eapply ref_known.
    - left. reflexivity.
    - reflexivity.
    - constructor.
    - constructor. }
  split; [concrete|]. vm_compute. reflexivity.
Qed.
Print Assumptions C49_compact_false_refuted.

Example C49_case :
  let ms1 := [Mem 3 (nm 99) false None (TyList ty_inner); Mem 9 (nm 105) true None ty_inner] in
  let fs := [(1, VList STRUCT [VStruct [(7, VBool false)]; VStruct []]); (3, VList STRUCT [VStruct [(1, VI32 5)]]);
             (-3, VMap STRING SET [(VStr [104; 105], VSet DOUBLE [VDouble (2 ^ 63)])])] in
  schema_ok (TyStruct [83] ms1) /\ wf (VStruct fs) /\ incl ms1 ms_outer /\
  gread (binaryR true) ext0 64 5 30 (TyStruct [83] ms1) [(sb_val (VStruct fs) ++ [77], None)] =
    Ok (inl (AStruct 0 [83] (fc_of ms1)
      [(3, AList 0 STRUCT [AStruct 0 [73] (fc_of [Mem 1 (nm 97) false None TyI32; Mem 2 (nm 98) true (Some (AInt16 7)) TyI16])
                             [(1, AInt32 5); (2, AInt16 7)]]); (9, ANil)]), [([77], None)]) /\
  reads ext0 5 (TyStruct [83] ms1) (VStruct (filter (known ms1) fs))
    (AStruct 0 [83] (fc_of ms1)
      [(3, AList 0 STRUCT [AStruct 0 [73] (fc_of [Mem 1 (nm 97) false None TyI32; Mem 2 (nm 98) true (Some (AInt16 7)) TyI16])
                             [(1, AInt32 5); (2, AInt16 7)]]); (9, ANil)]).
Proof.
  split.
  { constructor; [members|]. intros m [<-|[<-|[]]]; repeat (apply inner_ok || constructor). }
  split; [concrete|]. split; [intros m [<-|[<-|[]]]; cbn; tauto|]. split; [vm_compute; reflexivity|].
  cbn [filter known existsb m_id fst Z.eqb orb Pos.eqb]. constructor. eapply ref_known.
  - left. reflexivity.
  - reflexivity.
  - cbn [m_ty]. eapply (re_list ext0 5 ty_inner STRUCT _ _ (MkTl STRUCT _)).
    + constructor; [|constructor]. constructor. eapply ref_known; [left; reflexivity|reflexivity|constructor|constructor].
    + vm_compute. reflexivity.
  - constructor.
Qed.

(** ** C50 *)

(** A member declared i32 whose field arrives as a string: the reader takes the length of the
    string for the number and the first bytes of the text for the next field; here it stores a
    wrong value in [a], reads a phantom field, and never sees member [b]. *)
Theorem C50_unexpected_type_refuted : exists ms fs a' r',
  wf (VStruct fs) /\ In (Mem 1 (nm 97) false None TyI32) ms /\
  In (1, VStr [8; 0; 2; 0; 0; 0; 9; 0]) fs /\ In (2, VI32 7) fs /\
  gread (binaryR true) ext0 64 5 30 (TyStruct [83] ms) [(sb_val (VStruct fs), None)] =
    Ok (inl (AStruct 0 [83] (fc_of ms) a'), r') /\
  a' = [(1, AInt32 8); (2, AInt32 9)] /\ content r' <> [].
Proof.
  exists [Mem 1 (nm 97) false None TyI32; Mem 2 (nm 98) false None TyI32],
         [(1, VStr [8; 0; 2; 0; 0; 0; 9; 0]); (2, VI32 7)]. eexists _, _.
  split; [concrete|]. split; [left; reflexivity|]. split; [left; reflexivity|].
  split; [right; left; reflexivity|]. split; [vm_compute; reflexivity|].
  split; [reflexivity|vm_compute; discriminate].
Qed.
Print Assumptions C50_unexpected_type_refuted.

(** ** C51 *)

(** The last field with this id. *)
Fixpoint last_with (id : Z) (fs : list (Z * tval)) (w : option tval) : option tval :=
  match fs with
  | [] => w
  | (i, u) :: fs' => last_with id fs' (if i =? id then Some u else w)
  end.

Lemma dispatch_spec : forall x cf ms, NoDup (map m_id ms) ->
  forall a fs a', readsf x cf ms a fs a' -> map fst a = map m_id ms ->
  map fst a' = map m_id ms /\
  forall m, In m ms -> forall w0,
    (match w0 with Some w => reads x cf (m_ty m) w (attribute a (m_id m))
                 | None => attribute a (m_id m) = m_init m end) ->
    match last_with (m_id m) fs w0 with
    | Some w => reads x cf (m_ty m) w (attribute a' (m_id m))
    | None => attribute a' (m_id m) = m_init m
    end.
Proof.
  intros x cf ms Nd a fs a' H.
  induction H as [ms a|ms a id w fs m v a' Hm Eid R H IHr|ms a id w fs a' Hu H IHr]; intros E.
  - split; [exact E|]. intros m Hm w0 X. exact X.
  - destruct (IHr Nd) as [E1 IH]; [rewrite attr_set_ids; exact E|]. split; [exact E1|].
    intros n Hn w0 X. cbn [last_with]. apply IH; [exact Hn|]. destruct (Z.eqb_spec id (m_id n)) as [Ei|Ni].
    + assert (n = m).
      { assert (En : m_id n = m_id m) by congruence. clear -Nd Hn Hm En. revert Nd Hn Hm.
        induction ms as [|k ms IHms]; intros Nd Hn Hm; [destruct Hn|].
        inversion Nd as [|? ? Hni Nd']; subst. destruct Hn as [->|Hn], Hm as [->|Hm]; auto.
        - destruct Hni. rewrite En. apply in_map. exact Hm.
        - destruct Hni. rewrite <- En. apply in_map. exact Hn. }
      subst n. rewrite <- Ei, attr_set_get; [exact R|]. rewrite E, Ei. apply in_map. exact Hn.
    + rewrite attr_set_other by lia. exact X.
  - destruct (IHr Nd E) as [E1 IH]. split; [exact E1|]. intros n Hn w0 X. cbn [last_with].
    destruct (Z.eqb_spec id (m_id n)) as [Ei|Ni]; [destruct (Hu n Hn); congruence|]. apply IH; assumption.
Qed.

(** Read with the binary protocol, each member holds what the last field with its id stands
    for, or its initial value when there is none.  The ids of the schema are 0 or more, those on
    the wire any.  Missing: schemas with negative ids. *)
Theorem C51_dispatch_partial : forall strict x M cf name ms fs v f r rest,
  schema_ok (TyStruct name ms) -> wf (VStruct fs) ->
  reads x cf (TyStruct name ms) (VStruct fs) v ->
  (need (VStruct fs) <= f)%nat -> benign r -> content r = sb_val (VStruct fs) ++ rest ->
  exists attrs r',
    gread (binaryR strict) x M cf f (TyStruct name ms) r =
      Ok (inl (AStruct 0 name (fc_of ms) attrs), r') /\ content r' = rest /\
    map fst attrs = map m_id ms /\
    forall m, In m ms ->
      match last_with (m_id m) fs None with
      | Some w => reads x cf (m_ty m) w (attribute attrs (m_id m))
      | None => attribute attrs (m_id m) = m_init m
      end.
Proof.
  intros strict x M cf name ms fs v f r rest So Hw Rs N B C.
  destruct (bin_read strict x M cf (TyStruct name ms) _ v f r rest Hw Rs So N B C) as (r' & G & _ & E).
  inversion Rs; subst. exists attrs, r'. split; [exact G|]. split; [reflexivity|].
  inversion So as [| | | | | | | | | | | |? ? Mok Sok]; subst. destruct Mok as (Nid & _ & _).
  match goal with X : readsf _ _ _ _ _ _ |- _ =>
    destruct (dispatch_spec x cf ms Nid _ _ _ X) as [E1 D] end.
  { rewrite map_map. reflexivity. }
  split; [exact E1|]. intros m Hm. apply D; [exact Hm|]. apply attribute_init; assumption.
Qed.
Print Assumptions C51_dispatch_partial.
Example C51_case :
  let ms := [Mem 2 (nm 98) false None TyI32; Mem 1 (nm 97) false None TyI32] in
  let fs := [(1, VI32 5); (2, VI32 6); (-1, VI32 9); (1, VI32 7)] in
  schema_ok (TyStruct [83] ms) /\ wf (VStruct fs) /\ last_with 1 fs None = Some (VI32 7) /\
  gread (binaryR true) ext0 64 5 30 (TyStruct [83] ms) [(sb_val (VStruct fs), None)] =
    Ok (inl (AStruct 0 [83] (fc_of ms) [(2, AInt32 6); (1, AInt32 7)]), []) /\
  reads ext0 5 (TyStruct [83] ms) (VStruct fs) (AStruct 0 [83] (fc_of ms) [(2, AInt32 6); (1, AInt32 7)]).
Proof.
  split; [constructor; [members|intros m [<-|[<-|[]]]; constructor]|].
  split; [concrete|]. split; [reflexivity|]. split; [vm_compute; reflexivity|].
  constructor.
  eapply ref_known; [right; left; reflexivity|reflexivity|constructor|].
  eapply ref_known; [left; reflexivity|reflexivity|constructor|].
  eapply ref_unknown; [intros m [<-|[<-|[]]]; discriminate|].
  eapply ref_known; [right; left; reflexivity|reflexivity|constructor|]. constructor.
Qed.

(** Negative ids: the reader replaces a negative id by the one of the field name, which the
    protocols do not carry, so every one of them becomes -1.  A field with id -2 is stored in
    the member with id -1. *)
Theorem C51_negative_id_refuted : exists ms fs,
  map m_id ms = [-1; -2] /\ fs = [(-2, VI32 7)] /\
  gread (binaryR true) ext0 64 5 30 (TyStruct [83] ms) [(sb_val (VStruct fs), None)] =
    Ok (inl (AStruct 0 [83] (fc_of ms) [(-1, AInt32 7); (-2, AInt32 0)]), []).
Proof.
  exists [Mem (-1) (nm 97) false None TyI32; Mem (-2) (nm 98) false None TyI32]. eexists.
  split; [reflexivity|]. split; [reflexivity|vm_compute; reflexivity].
Qed.
Print Assumptions C51_negative_id_refuted.
