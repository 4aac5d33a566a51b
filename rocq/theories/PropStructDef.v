(** Properties of the struct types the generator declares: C86, C87. *)
From Coq Require Import ZArith List Bool Lia String.
From Coq Require Import ZifyBool ZifyNat.
From Verif Require Import Base Errors Transport Proto Arith F64 Strconv TField GoVal Compare TList TSet TMap Binary Values.
From Verif Require Import Gen GenSpec Names PropNames StructDef PropGen.
Import ListNotations.
Open Scope Z_scope.
Open Scope list_scope.
Local Notation length := List.length.

Lemma ident_starts : forall s, ident s -> ident_start s.
Proof. intros [|c s] H; [destruct H|]. destruct H as [H _]. cbn. unfold id_start, letter in H. tauto. Qed.
Lemma lit_ident : forall l, Forall ident l -> forall s, In s l -> ident s.
Proof. intros l H s. rewrite Forall_forall in H. apply H. Qed.
Lemma ident_app : forall a b, ident a -> Forall id_char b -> ident (a ++ b).
Proof. intros [|c a] b H Hb; [destruct H|]. destruct H as [H1 H2]. cbn. split; [exact H1|]. apply Forall_app. auto. Qed.
Lemma ident_chars : forall s, ident s -> Forall id_char s.
Proof. intros [|c s] H; [destruct H|]. destruct H as [H1 H2]. constructor; [left; exact H1|exact H2]. Qed.
Lemma digits_chars : forall z, 0 <= z < 2 ^ 63 -> Forall id_char (FormatInt z).
Proof.
  intros z Hz. destruct (format_head z Hz) as (c & t & -> & C & T). constructor; [right; exact C|].
  eapply Forall_impl; [|exact T]. intros d Hd. right. exact Hd.
Qed.

(** ** C86 *)

(** When the declaration of a struct type and its methods is valid Go: exactly if no member has
    a negative id, the Go names of the members differ, so do those without the keyword rule,
    and none is TStruct or the name of a method. *)
Theorem C86_valid_iff : forall ms, Forall (fun m => ident (m_name m)) ms -> NoDup (map m_id ms) ->
  (forall m, In m ms -> m_id m < 2 ^ 63) ->
  (go_valid (decl_fields ms) (decl_methods ms) <->
   (forall m, In m ms -> 0 <= m_id m) /\
   NoDup (map (fun m => member_name (m_name m)) ms) /\
   NoDup (map (fun m => publicize (m_name m)) ms) /\
   forall m, In m ms -> member_name (m_name m) <> lit "TStruct" /\ ~ In (member_name (m_name m)) (decl_methods ms)).
Proof.
  intros ms Id Nd Hi.
  assert (St : Forall (fun m => ident_start (m_name m)) ms).
  { eapply Forall_impl; [|exact Id]. intros m. apply ident_starts. }
  assert (Ex : ~ In (lit "TStruct") (decl_methods ms)).
  { unfold decl_methods, isset_methods, field_methods. rewrite !in_app_iff, !in_map_iff. intros C.
    destruct C as [C|[(m & E & _)|[[(m & E & _)|(m & E & _)]|[(m & E & _)|(m & E & _)]]]]; try discriminate E.
    in_lits C. }
  destruct (positive_ids ms) eqn:P.
  - assert (Ps : forall m, In m ms -> 0 <= m_id m).
    { unfold positive_ids in P. rewrite forallb_forall in P. intros m Hm. specialize (P m Hm). lia. }
    assert (Ok : ids_ok ms) by (intros m Hm; split; auto).
    assert (Ef : map fst (decl_fields ms) = lit "TStruct" :: map (fun m => member_name (m_name m)) ms).
    { unfold decl_fields. rewrite P. cbn [map fst]. rewrite map_map. reflexivity. }
    unfold go_valid. rewrite Ef. cbn [app]. split.
    + intros (_ & H & _). inversion H as [|? ? Ni H']; subst. apply nodup_app in H' as (H1 & H2 & H3).
      split; [exact Ps|]. split; [exact H1|]. split; [apply (decl_methods_nodup ms); assumption|].
      intros m Hm. assert (I : In (member_name (m_name m)) (map (fun m => member_name (m_name m)) ms)).
      { apply in_map_iff. exists m. auto. }
      split; [|apply H3; exact I]. intros E. apply Ni. apply in_or_app. left. rewrite <- E. exact I.
    + intros (_ & H1 & H2 & H3). split; [|split].
      * constructor; [idt|]. apply Forall_app. split.
        { apply Forall_map. eapply Forall_impl; [|exact Id]. intros m Hm. exact (proj1 (C53_valid _ Hm)). }
        assert (A : forall m, In m ms -> ident (m_name m)) by (rewrite Forall_forall in Id; exact Id).
        unfold decl_methods, isset_methods, field_methods. repeat (apply Forall_app; split).
        { unfold fixed_methods. cbn [map]. repeat (constructor; [idt|]); constructor. }
        all: apply Forall_map; apply Forall_forall; intros m Hm.
        { apply filter_In in Hm as [Hm _]. apply ident_app; [idt|]. apply ident_chars, (proj1 (C53_valid _ (A m Hm))). }
        all: try rewrite !app_assoc; apply ident_app; [idt|].
        1, 3: apply digits_chars, Ok, Hm.
        all: apply ident_chars, publicize_ident, A, Hm.
      * constructor.
        { intros C. apply in_app_or in C as [C|C]; [|exact (Ex C)]. apply in_map_iff in C as (m & E & Hm).
          exact (proj1 (H3 m Hm) E). }
        apply nodup_app. split; [exact H1|]. split; [apply (decl_methods_nodup ms); assumption|].
        intros s Hs. apply in_map_iff in Hs as (m & <- & Hm). exact (proj2 (H3 m Hm)).
      * unfold decl_fields. rewrite P. constructor; [exact I|]. apply Forall_map. apply Forall_forall. intros m _. exact I.
  - assert (Ng : exists m, In m ms /\ m_id m < 0).
    { unfold positive_ids in P. clear -P. induction ms as [|m ms IH]; [discriminate|]. cbn in P.
      destruct (Z.leb_spec 0 (m_id m)); [|exists m; split; [left; reflexivity|lia]].
      destruct (IH P) as (m' & Hm & L). exists m'. split; [right; exact Hm|exact L]. }
    destruct Ng as (m & Hm & L). split.
    + intros (_ & _ & H). unfold decl_fields in H. rewrite P in H. inversion H as [|? ? _ H']; subst.
      rewrite Forall_map, Forall_forall in H'. destruct (H' m Hm).
    + intros (H & _). specialize (H m Hm). lia.
Qed.
Print Assumptions C86_valid_iff.

(** In names: with ids from 0 on, names in lower case that differ, and none of them a keyword
    (so the rule of C53 leaves them alone), only a member named like a method of the type, or
    t_struct, stands against it. *)
Theorem C86_lower_case : forall ms,
  Forall (fun m => ident (m_name m) /\ no_upper (m_name m) /\ ~ reserved (map tolower (m_name m))) ms ->
  NoDup (map m_id ms) -> (forall m, In m ms -> 0 <= m_id m < 2 ^ 63) -> NoDup (map m_name ms) ->
  (go_valid (decl_fields ms) (decl_methods ms) <->
   forall m, In m ms -> ~ In (publicize (m_name m)) (lit "TStruct" :: decl_methods ms)).
Proof.
  intros ms H Nd Hi Nn. rewrite Forall_forall in H.
  assert (E : forall m, In m ms -> member_name (m_name m) = publicize (m_name m)).
  { intros m Hm. destruct (H m Hm) as (_ & _ & R). unfold member_name. f_equal.
    destruct (goname_cases (m_name m)) as [(G & _)|(_ & R')]; [exact G|contradiction]. }
  assert (P : NoDup (map (fun m => publicize (m_name m)) ms)).
  { apply (nodup_map _ _ _ publicize m_name); [|exact Nn]. intros a b Ha Hb. apply publicize_inj; apply H; assumption. }
  rewrite C86_valid_iff; [|apply Forall_forall; intros m Hm; apply H, Hm|exact Nd|intros m Hm; apply Hi, Hm]. split.
  - intros (_ & _ & _ & F) m Hm [C|C]; destruct (F m Hm) as [F1 F2]; rewrite (E m Hm) in *; [congruence|contradiction].
  - intros F. split; [intros m Hm; apply Hi, Hm|]. split; [|split; [exact P|]].
    + rewrite (map_ext_in _ (fun m => publicize (m_name m))); [exact P|exact E].
    + intros m Hm. rewrite (E m Hm). split; intros C; apply (F m Hm); [left; congruence|right; exact C].
Qed.
Print Assumptions C86_lower_case.

(** Names the compiler takes that give no Go type: a member read; a member t_struct; an optional
    member a beside is_set_a; type beside type_a1; a beside A; read_field1 beside a member of id
    1; a member whose id the compiler chose, which is negative. *)
Definition mem_i32 (id : Z) (opt : bool) (name : string) : member := Mem id (lit name) opt None TyI32.
Definition bad_structs : list (list member) :=
  [ [mem_i32 1 false "read"]; [mem_i32 1 false "t_struct"];
    [mem_i32 1 true "a"; mem_i32 2 false "is_set_a"]; [mem_i32 1 false "type"; mem_i32 2 false "type_a1"];
    [mem_i32 1 false "a"; mem_i32 2 false "A"]; [mem_i32 1 false "a"; mem_i32 2 false "read_field1"];
    [mem_i32 (-1) false "a"] ].
Theorem C86_valid_refuted : bad_structs <> [] /\
  Forall (fun ms => Forall (fun m => ident (m_name m)) ms /\ NoDup (map m_id ms) /\ NoDup (map m_name ms) /\
    ~ go_valid (decl_fields ms) (decl_methods ms)) bad_structs.
Proof.
  split; [discriminate|].
  assert (I : forall ms, (length ms <= 2)%nat -> NoDup (map m_id ms) -> NoDup (map m_name ms) ->
    Forall (fun m => ident (m_name m)) ms -> ~ go_valid (decl_fields ms) (decl_methods ms) ->
    Forall (fun m => ident (m_name m)) ms /\ NoDup (map m_id ms) /\ NoDup (map m_name ms) /\
    ~ go_valid (decl_fields ms) (decl_methods ms)) by auto.
  assert (N : forall l : list bytes, (length (nodup (list_eq_dec Z.eq_dec) l) < length l)%nat -> ~ NoDup l).
  { intros l L H. apply (nodup_fixed_point (list_eq_dec Z.eq_dec)) in H. rewrite H in L. exact (Nat.lt_irrefl _ L). }
  repeat (apply Forall_cons; [apply I; [cbn; lia| | | |];
    [cbn; repeat (constructor; [cbn; intuition discriminate|]); constructor
    |cbn; repeat (constructor; [cbn; intuition discriminate|]); constructor
    |repeat (apply Forall_cons; [idt|]); apply Forall_nil|]|]); [..|apply Forall_nil].
  1-6: intros (_ & V & _); revert V; apply N; vm_compute; lia.
  intros (_ & _ & V). inversion V as [|? ? _ V1]; subst. inversion V1 as [|? ? V2 _]; subst. exact V2.
Qed.
Print Assumptions C86_valid_refuted.

Definition point86 : list member :=
  [mem_i32 1 false "x"; mem_i32 2 true "y_axis"; Mem 5 (lit "range") false None (TyList TyI64);
   Mem 4 (lit "c") false None (TyEnum 1 (lit "Color") [(lit "RED", 1)])].
Example C86_ex : Forall (fun m => ident (m_name m)) point86 /\ NoDup (map m_id point86) /\
  (forall m, In m point86 -> m_id m < 2 ^ 63) /\ go_valid (decl_fields point86) (decl_methods point86) /\
  map fst (decl_fields point86) = map lit ["TStruct"; "X"; "YAxis"; "RangeA1"; "C"]%string /\
  firstn 4 (skipn 8 (decl_methods point86)) = map lit ["IsSetYAxis"; "IsSetC"; "ReadField1"; "ReadField2"]%string.
Proof.
  assert (Id : Forall (fun m => ident (m_name m)) point86).
  { repeat (apply Forall_cons; [idt|]). apply Forall_nil. }
  assert (Nd : NoDup (map m_id point86)).
  { cbn; repeat (constructor; [cbn; intuition discriminate|]); constructor. }
  assert (B : forall m, In m point86 -> 0 <= m_id m < 2 ^ 63).
  { intros m [<-|[<-|[<-|[<-|[]]]]]; cbn; lia. }
  assert (N : forall l : list bytes, nodup (list_eq_dec Z.eq_dec) l = l -> NoDup l).
  { intros l <-. apply NoDup_nodup. }
  split; [exact Id|]. split; [exact Nd|]. split; [intros m Hm; apply B, Hm|]. split; [|split; vm_compute; reflexivity].
  apply C86_valid_iff; [exact Id|exact Nd|intros m Hm; apply B, Hm|]. split; [intros m Hm; apply B, Hm|].
  split; [apply N; vm_compute; reflexivity|]. split; [apply N; vm_compute; reflexivity|].
  intros m Hm. assert (I : In (member_name (m_name m)) (map (fun m => member_name (m_name m)) point86)).
  { apply in_map_iff. exists m. auto. }
  assert (F : forallb (fun s => if in_dec (list_eq_dec Z.eq_dec) s (lit "TStruct" :: decl_methods point86) then false else true)
    (map (fun m => member_name (m_name m)) point86) = true) by (vm_compute; reflexivity).
  rewrite forallb_forall in F. specialize (F _ I). destruct (in_dec _ _ _) as [|C]; [discriminate|].
  split; intros C'; apply C; [left; congruence|right; exact C'].
Qed.

(** ** C87 *)

(** A pointer to a generated struct has the methods of thrift.TStruct exactly if no member has
    the Go name of one of them. *)
Theorem C87_implements_iff : forall ms, go_valid (decl_fields ms) (decl_methods ms) ->
  (implements ms <-> forall s, In s tstruct_methods -> ~ In s (map fst (decl_fields ms))).
Proof.
  intros ms (_ & V & _). apply nodup_app in V as (_ & _ & D). split.
  - intros H s Hs C. destruct (H s Hs) as [A|(_ & A & _)]; [exact (D _ C A)|contradiction].
  - intros H s Hs. destruct (in_dec (list_eq_dec Z.eq_dec) s (decl_methods ms)) as [A|A]; [left; exact A|].
    right. auto.
Qed.
Print Assumptions C87_implements_iff.

Lemma shadows_spec : forall ms, go_valid (decl_fields ms) (decl_methods ms) -> (shadows ms = false <-> implements ms).
Proof.
  intros ms V. rewrite (C87_implements_iff ms V).
  assert (Ef : map fst (decl_fields ms) = lit "TStruct" :: map (fun m => member_name (m_name m)) ms).
  { destruct V as (_ & _ & V). unfold decl_fields in *. destruct (positive_ids ms) eqn:P.
    - cbn [map fst]. rewrite map_map. reflexivity.
    - destruct ms as [|m ms]; [discriminate|]. inversion V as [|? ? _ V']; subst. inversion V' as [|? ? C _]; subst. destruct C. }
  rewrite Ef. unfold shadows. split.
  - intros E s Hs [C|C].
    + subst s. revert Hs. unfold tstruct_methods. cbn [map In]. intuition discriminate.
    + apply in_map_iff in C as (m & <- & Hm).
      assert (T : existsb (fun m => if in_dec (list_eq_dec Z.eq_dec) (member_name (m_name m)) tstruct_methods then true else false) ms = true).
      { apply existsb_exists. exists m. split; [exact Hm|]. destruct (in_dec _ _ _); [reflexivity|contradiction]. }
      congruence.
  - intros H. destruct (existsb _ ms) eqn:E; [|reflexivity]. apply existsb_exists in E as (m & Hm & E).
    destruct (in_dec _ _ _) as [C|C]; [|discriminate]. destruct (H _ C). right. apply in_map_iff. eauto.
Qed.

Section Lost.
Context {S : Type}.
Lemma wseq_none : forall (m k : wop S) s s', (m >>> k) s = Ok (None, s') -> exists s1, m s = Ok (None, s1) /\ k s1 = Ok (None, s').
Proof.
  intros m k s s'. unfold wseq. destruct (m s) as [[[e|] s1]| |]; cbn; try discriminate. intros E. eauto.
Qed.
Lemma wwrap_none : forall (m : wop S) s s', wwrap m s = Ok (None, s') -> m s = Ok (None, s').
Proof. intros m s s'. unfold wwrap. destruct (m s) as [[[e|] s1]| |]; cbn; congruence. Qed.
Lemma wseqs_none : forall (l : list (wop S)) s s', wseqs l s = Ok (None, s') -> forall m, In m l -> exists s1 s2, m s1 = Ok (None, s2).
Proof.
  induction l as [|m l IH]; intros s s' E m' Hm; [destruct Hm|]. cbn in E. apply wseq_none in E as (s1 & E1 & E2).
  destruct Hm as [<-|Hm]; eauto.
Qed.
End Lost.

(** A struct whose type has them is what a list of structs keeps.  Of any other the list keeps an
    empty struct with no name in its place, and says nothing; the generated writer of such a list
    never succeeds. *)
Theorem C87_list : forall x ms a name attrs str l,
  go_valid (decl_fields ms) (decl_methods ms) ->
  let v := as_any ms a name attrs str in
  (implements ms -> tl_Push x (MkTl STRUCT l) v = Ok (MkTl STRUCT (l ++ [AStruct a name (fc_of ms) attrs]))) /\
  (~ implements ms -> exists e, tl_Push x (MkTl STRUCT l) v = Ok (MkTl STRUCT (l ++ [e])) /\
     (exists b c, e = AStruct b [] c []) /\
     forall S (W : wproto S) f b s s', name <> [] ->
       gwrite W x f (TyList (TyStruct name ms)) (AList b STRUCT (l ++ [e])) s <> Ok (None, s')).
Proof.
  intros x ms a name attrs str l V v. pose proof (shadows_spec ms V) as Sh. unfold v, as_any. split.
  - intros H. apply Sh in H. rewrite H. reflexivity.
  - intros H. destruct (shadows ms); [|destruct H; apply Sh; reflexivity]. eexists. split; [reflexivity|].
    split; [do 2 eexists; reflexivity|]. intros S W f b s s' Hn E. destruct f as [|f]; [discriminate|].
    cbn [gwrite] in E. apply wseq_none in E as (s1 & _ & E). apply wseq_none in E as (s2 & E & _).
    destruct (wseqs_none _ _ _ E (gwrite W x f (TyStruct name ms) NewTStructEmpty)) as (s3 & s4 & C).
    { apply in_map. apply in_or_app. right. left. reflexivity. }
    destruct f as [|f]; [discriminate|]. unfold NewTStructEmpty in C. cbn [gwrite] in C.
    destruct name; [congruence|]. discriminate.
Qed.
Print Assumptions C87_list.

(** A struct with a member len is not a TStruct. *)
Theorem C87_implements_refuted : exists ms, Forall (fun m => ident (m_name m)) ms /\
  go_valid (decl_fields ms) (decl_methods ms) /\ ~ implements ms /\
  forall a name attrs str x, tl_Push x (MkTl STRUCT []) (as_any ms a name attrs str) = Ok (MkTl STRUCT [NewTStructEmpty]).
Proof.
  exists [mem_i32 1 false "len"].
  assert (Id : Forall (fun m => ident (m_name m)) [mem_i32 1 false "len"]) by (repeat (apply Forall_cons; [idt|]); apply Forall_nil).
  assert (V : go_valid (decl_fields [mem_i32 1 false "len"]) (decl_methods [mem_i32 1 false "len"])).
  { apply C86_valid_iff; [exact Id|cbn; constructor; [auto|constructor]|intros m [<-|[]]; cbn; lia|].
    split; [intros m [<-|[]]; cbn; lia|]. split; [cbn; constructor; [auto|constructor]|].
    split; [cbn; constructor; [auto|constructor]|]. intros m [<-|[]]. split; [discriminate|].
    intros C. unfold decl_methods, isset_methods, field_methods in C. cbn [filter has_isset mem_i32 m_opt m_ty orb map] in C.
    in_lits C. }
  split; [exact Id|]. split; [exact V|]. split; [|intros; reflexivity].
  intros H. apply (shadows_spec _ V) in H. discriminate H.
Qed.
Print Assumptions C87_implements_refuted.

Example C87_ex : implements point86 /\ shadows point86 = false /\
  as_any point86 1 (lit "P") [(1, AInt32 7)] [] = AStruct 1 (lit "P") (fc_of point86) [(1, AInt32 7)].
Proof.
  split; [|split; vm_compute; reflexivity]. apply shadows_spec; [apply C86_ex|vm_compute; reflexivity].
Qed.
