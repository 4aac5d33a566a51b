(** The Go struct type the generator declares for a struct: generate_go_struct_definition,
    generate_isset_helpers and the method names of generate_go_struct_reader and _writer,
    t_go_generator.cc:856-1463. *)
From Coq Require Import ZArith List Bool Lia String.
From Coq Require Import ZifyBool ZifyNat.
From Verif Require Import Base Arith Strconv TField GoVal Gen Names PropNames.
Import ListNotations.
Open Scope Z_scope.
Open Scope list_scope.

(** ** Model *)

(** What stands behind the name of a field in the declaration: the embedded thrift.TStruct, the
    Go type of a member, or what type_to_enum prints, the name of a constant (line 918). *)
Inductive fieldtype : Type := FEmbed | FGo (t : ty) | FConst (t : ty).

(** The smallest id comes first in sorted_members: lines 892-921.  Blank fields (_) are left
    out: they declare nothing. *)
Definition positive_ids (ms : list member) : bool := forallb (fun m => 0 <=? m_id m) ms.
Definition decl_fields (ms : list member) : list (bytes * fieldtype) :=
  (lit "TStruct", FEmbed) ::
  map (fun m => if positive_ids ms then (member_name (m_name m), FGo (m_ty m))
                else (publicize (m_name m), FConst (m_ty m))) ms.

(** The methods: lines 1045-1140 (IsSet), 1153, 1248-1262, 1273, 1409, 1455 (Read, Write and those
    of the members), 971-1036. *)
Definition has_isset (m : member) : bool :=
  m_opt m || match m_ty m with TyEnum _ _ _ => true | _ => false end.
Definition fixed_methods : list bytes :=
  map lit ["Read"; "Write"; "TStructName"; "ThriftName"; "String"; "CompareTo"; "AttributeByFieldId";
           "TStructFields"]%string.
Definition isset_methods (ms : list member) : list bytes :=
  map (fun m => lit "IsSet" ++ member_name (m_name m)) (filter has_isset ms).
Definition field_methods (verb : bytes) (ms : list member) : list bytes :=
  map (fun m => verb ++ lit "Field" ++ FormatInt (m_id m)) ms ++
  map (fun m => verb ++ lit "Field" ++ publicize (m_name m)) ms.
Definition decl_methods (ms : list member) : list bytes :=
  fixed_methods ++ isset_methods ms ++ field_methods (lit "Read") ms ++ field_methods (lit "Write") ms.

(** The interface thrift.TStruct: tstruct.go:26-34, tfield.go:127-135, tcontainer.go:22-27. *)
Definition tstruct_methods : list bytes :=
  map lit ["Len"; "Contains"; "Equals"; "CompareTo"; "FieldNameFromFieldId"; "FieldIdFromFieldName";
           "FieldFromFieldId"; "FieldFromFieldName"; "At"; "Iter"; "TStructName"; "ThriftName";
           "TStructFields"; "String"; "AttributeFromFieldId"; "AttributeFromFieldName"]%string.

(** What a pointer to such a struct is to the library, which asks data.(TStruct) and
    data.(Stringer) (ttype.go:1073): [str] is what its String gives. *)
Definition shadows (ms : list member) : bool :=
  existsb (fun m => if in_dec (list_eq_dec Z.eq_dec) (member_name (m_name m)) tstruct_methods then true else false) ms.
Definition as_any (ms : list member) (a : Z) (name : bytes) (attrs : list (Z * any)) (str : bytes) : any :=
  if shadows ms then AStringer a str else AStruct a name (fc_of ms) attrs.

(** ** Specification: the rules of Go *)

(** A struct type with methods: the names of its fields and methods are identifiers, all
    different, and its fields have types ([ident]: C53).  The bodies of the methods are not
    looked at. *)
Definition is_type (t : fieldtype) : Prop := match t with FConst _ => False | _ => True end.
Definition go_valid (fields : list (bytes * fieldtype)) (methods : list bytes) : Prop :=
  Forall ident (map fst fields ++ methods) /\ NoDup (map fst fields ++ methods) /\
  Forall (fun f => is_type (snd f)) fields.

(** The method set: the declared methods, and those of the embedded interface whose name no
    field and no method has. *)
Definition in_method_set (ms : list member) (name : bytes) : Prop :=
  In name (decl_methods ms) \/
  (In name tstruct_methods /\ ~ In name (map fst (decl_fields ms)) /\ ~ In name (decl_methods ms)).
Definition implements (ms : list member) : Prop := forall name, In name tstruct_methods -> in_method_set ms name.

(** ** Proofs *)
Definition ident_start (s : bytes) : Prop :=
  match s with [] => False | c :: _ => 65 <= c <= 90 \/ 97 <= c <= 122 \/ c = 95 end.
Lemma nodup_app : forall A (l l' : list A), NoDup (l ++ l') <->
  NoDup l /\ NoDup l' /\ forall a, In a l -> ~ In a l'.
Proof.
  intros A. induction l as [|a l IH]; intros l'; cbn [app In].
  - split; [intros H; repeat split; auto; constructor|tauto].
  - split.
    + intros H. inversion H as [|? ? Ni H']; subst. apply IH in H' as (H1 & H2 & H3).
      split; [|split]; [|exact H2|].
      * constructor; auto. intros C. apply Ni, in_or_app. auto.
      * intros b [<-|Hb]; [|auto]. intros C. apply Ni, in_or_app. auto.
    + intros (H1 & H2 & H3). inversion H1; subst. constructor.
      * intros C. apply in_app_or in C as [C|C]; [auto|]. apply (H3 a); auto.
      * apply IH. auto.
Qed.
Lemma nodup_map : forall A B C (g : B -> C) (f : A -> B) l, (forall a b, In a l -> In b l -> g (f a) = g (f b) -> f a = f b) ->
  NoDup (map f l) -> NoDup (map (fun a => g (f a)) l).
Proof.
  intros A B C g f. induction l as [|a l IH]; intros Hg H; cbn in *; [constructor|].
  inversion H as [|? ? Ni H']; subst. constructor.
  - intros I. apply in_map_iff in I as (b & E & Hb). apply Ni. apply in_map_iff. exists b. split; [|exact Hb].
    apply Hg; auto.
  - apply IH; auto.
Qed.
Lemma nodup_filter : forall A B (f : A -> B) p l, NoDup (map f l) -> NoDup (map f (filter p l)).
Proof.
  intros A B f p. induction l as [|a l IH]; intros H; cbn; [constructor|]. inversion H as [|? ? Ni H']; subst.
  destruct (p a); cbn; [|auto]. constructor; auto. intros I. apply Ni.
  apply in_map_iff in I as (b & <- & I). apply filter_In in I. apply in_map. tauto.
Qed.

Lemma format_head : forall z, 0 <= z < 2 ^ 63 -> exists c t, FormatInt z = c :: t /\ 48 <= c <= 57 /\
  Forall (fun c => 48 <= c <= 57) t.
Proof.
  intros z Hz. unfold FormatInt. replace (z <? 0) with false by lia.
  destruct (format_uint_spec z) as (A & B & C); [split; [lia|]; eapply Z.lt_trans; [apply Hz|reflexivity]|].
  destruct (format_uint z) as [|c t]; [congruence|]. inversion B; subst. eauto.
Qed.
Lemma format_inj : forall a b, 0 <= a < 2 ^ 63 -> 0 <= b < 2 ^ 63 -> FormatInt a = FormatInt b -> a = b.
Proof.
  intros a b Ha Hb E. assert (I : forall z, 0 <= z < 2 ^ 63 -> in_s 64 z).
  { intros z Hz. unfold in_s. change (2 ^ (64 - 1)) with (2 ^ 63). lia. }
  pose proof (ParseInt_FormatInt a (I a Ha)) as P. rewrite E, (ParseInt_FormatInt b (I b Hb)) in P. congruence.
Qed.

Lemma head_not_digit : forall s c t, ident_start s -> publicize s = c :: t -> ~ (48 <= c <= 57).
Proof.
  intros [|a s] c t H E; [discriminate|]. injection E as <- _. cbn in H. unfold isupper, islower, toupper in *.
  unfold islower. destruct (negb _) eqn:U; [|lia]. destruct ((97 <=? a) && (a <=? 122)) eqn:L; lia.
Qed.

Definition ids_ok (ms : list member) : Prop := forall m, In m ms -> 0 <= m_id m < 2 ^ 63.

Lemma field_methods_nodup : forall verb ms, NoDup (map m_id ms) -> ids_ok ms ->
  Forall (fun m => ident_start (m_name m)) ms ->
  (NoDup (field_methods verb ms) <-> NoDup (map (fun m => publicize (m_name m)) ms)).
Proof.
  intros verb ms Nd Ok Id. unfold field_methods. rewrite nodup_app. split.
  - intros (_ & H & _). apply (NoDup_map_inv (fun s => verb ++ lit "Field" ++ s)). rewrite map_map. exact H.
  - intros H. split; [|split].
    + apply (nodup_map _ _ _ (fun z => verb ++ lit "Field" ++ FormatInt z) m_id); [|exact Nd].
      intros a b Ha Hb E. do 2 apply app_inv_head in E. apply format_inj; auto.
    + apply (nodup_map _ _ _ (fun s => verb ++ lit "Field" ++ s) (fun m => publicize (m_name m))); [|exact H].
      intros a b _ _ E. do 2 apply app_inv_head in E. exact E.
    + intros s Hs Hs'. apply in_map_iff in Hs as (m & <- & Hm). apply in_map_iff in Hs' as (m' & E & Hm').
      do 2 apply app_inv_head in E. destruct (format_head (m_id m) (Ok _ Hm)) as (c & t & F & C & _).
      rewrite F in E. rewrite Forall_forall in Id. exact (head_not_digit _ _ _ (Id _ Hm') E C).
Qed.

Ltac in_lits H := unfold fixed_methods in H; cbn [map In] in H;
  repeat (destruct H as [H|H]; [try discriminate H|]); try contradiction.

Lemma decl_methods_nodup : forall ms, NoDup (map m_id ms) -> ids_ok ms ->
  Forall (fun m => ident_start (m_name m)) ms ->
  NoDup (map (fun m => member_name (m_name m)) ms) ->
  (NoDup (decl_methods ms) <-> NoDup (map (fun m => publicize (m_name m)) ms)).
Proof.
  intros ms Nd Ok Id Nm. unfold decl_methods. rewrite !nodup_app, !field_methods_nodup by assumption.
  split; [tauto|]. intros H. split; [|split; [split; [|split; [split; [|split]|]]|]].
  - repeat (constructor; [intros C; in_lits C|]). constructor.
  - unfold isset_methods.
    apply (nodup_map _ _ _ (fun s => lit "IsSet" ++ s) (fun m => member_name (m_name m))).
    + intros a b _ _ E. apply app_inv_head in E. exact E.
    + apply nodup_filter. exact Nm.
  - exact H.
  - exact H.
  - intros s Hs Hs'. unfold field_methods in *. rewrite in_app_iff, !in_map_iff in Hs, Hs'.
    destruct Hs as [(m & <- & _)|(m & <- & _)], Hs' as [(m' & E & _)|(m' & E & _)]; discriminate E.
  - intros s Hs Hs'. unfold isset_methods, field_methods in *. rewrite !in_app_iff, !in_map_iff in Hs'.
    apply in_map_iff in Hs as (m & <- & _).
    destruct Hs' as [[(m' & E & _)|(m' & E & _)]|[(m' & E & _)|(m' & E & _)]]; discriminate E.
  - intros s Hs Hs'. unfold isset_methods, field_methods in *. rewrite !in_app_iff, !in_map_iff in Hs'.
    destruct Hs' as [(m' & <- & _)|[[(m' & <- & _)|(m' & <- & _)]|[(m' & <- & _)|(m' & <- & _)]]]; in_lits Hs.
Qed.
