(** Generated code: what survives a write followed by a read. *)
From Coq Require Import ZArith List Bool Lia Permutation.
From Coq Require Import ZifyBool ZifyNat.
From Verif Require Import Base Errors Transport Proto Arith Values BinaryProofs CompactSpec.
From Verif Require Import F64 Strconv TField GoVal Compare CompareProofs TList TSet TMap TFieldProofs
  CoerceProofs Gen GenSpec GenProofs GenInst.
Import ListNotations.
Open Scope Z_scope.
Ltac Zify.zify_post_hook ::= Z.div_mod_to_equations.

(** ** Specification *)

(** Go values with the same contents: pointer identities, declared element types and size
    hints of containers aside, map entries in any order. *)
Definition scalar (v : any) : bool :=
  match v with
  | ANil | ABool _ | AByte _ | AInt16 _ | AInt32 _ | AInt64 _ | AF64 _ | AStr _ | ABytes _
  | AEnum _ _ _ => true
  | _ => false
  end.
Inductive same : any -> any -> Prop :=
| same_scalar v : scalar v = true -> same v v
| same_list a et l a' et' l' : Forall2 same l l' -> same (AList a et l) (AList a' et' l')
| same_set a et s l a' et' s' l' : Forall2 same l l' -> same (ASet a et s l) (ASet a' et' s' l')
| same_map a kt vt s b a' kt' vt' s' b1 b' : Permutation b b1 ->
    Forall2 (fun e e' => fst e = fst e' /\ same (snd e) (snd e')) b1 b' ->
    same (AMap a kt vt s [] b) (AMap a' kt' vt' s' [] b')
| same_struct a n fc attrs a' fc' attrs' :
    map fst attrs = map fst attrs' ->
    (forall id, In id (map fst attrs) -> same (attribute attrs id) (attribute attrs' id)) ->
    same (AStruct a n fc attrs) (AStruct a' n fc' attrs').

(** Element types of lists and sets that keep their Go type: not enums, not binary. *)
Definition elem_ok (t : ty) : Prop :=
  match t with TyEnum _ _ _ | TyBinary => False | _ => True end.
(** Key types whose Go maps can be written back. *)
Definition key_ok (t : ty) : Prop :=
  match t with
  | TyBool | TyByte | TyI16 | TyI32 | TyI64 | TyDouble | TyString => True
  | _ => False
  end.

(** The values of a type that come back from a write and a read. *)
Inductive kept (x : ext) : ty -> any -> Prop :=
| k_bool b : kept x TyBool (ABool b)
| k_byte z : in_u 8 z -> kept x TyByte (AByte z)
| k_i16 z : in_s 16 z -> kept x TyI16 (AInt16 z)
| k_i32 z : in_s 32 z -> kept x TyI32 (AInt32 z)
| k_i64 z : in_s 64 z -> kept x TyI64 (AInt64 z)
| k_double z : in_u 64 z -> kept x TyDouble (AF64 z)
| k_string s : is_bytes s -> Z.of_nat (length s) < 2 ^ 31 -> kept x TyString (AStr s)
| k_binary s : is_bytes s -> Z.of_nat (length s) < 2 ^ 31 -> kept x TyBinary (ABytes s)
| k_enum tag n cs z : in_s 32 z -> kept x (TyEnum tag n cs) (AEnum tag z (enum_String n cs z))
| k_list t a et l : elem_ok t -> Z.of_nat (length l) < 2 ^ 31 ->
    (forall u, In u l -> kept x t u) -> kept x (TyList t) (AList a et l)
(** sets of at most one element: Add keeps no new minimum (C37) *)
| k_set t a et size l : elem_ok t -> (length l <= 1)%nat -> l <> [] \/ size = 0 ->
    (forall u, In u l -> kept x t u) -> kept x (TySet t) (ASet a et size l)
| k_map k v a vt size b : key_ok k -> Z.of_nat (length b) < 2 ^ 31 -> NoDup (ekeys b) ->
    (forall u, In u (map fst b) -> native (wt_of k) u) ->
    (forall u, In u (map fst b) -> kept x k u) ->
    (forall u, In u (map snd b) -> kept x v u) ->
    kept x (TyMap k v) (AMap a (wt_of k) vt size [] b)
(** members that are written are kept; the others hold what the constructor gives them *)
| k_struct name ms a fc attrs :
    map fst attrs = map m_id ms ->
    (forall m, In m ms -> gemits m (attribute attrs (m_id m)) = true ->
       kept x (m_ty m) (attribute attrs (m_id m))) ->
    (forall m, In m ms -> gemits m (attribute attrs (m_id m)) = false ->
       same (attribute attrs (m_id m)) (m_init m)) ->
    kept x (TyStruct name ms) (AStruct a name fc attrs).

(** ** Proofs *)

(** The wire form is well-formed. *)
Lemma wt_wire : forall t, wire_type (wt_of t).
Proof. intros []; cbn; unfold wire_type; cbn; tauto. Qed.

Lemma wireof_wf_all : forall x,
  (forall t v w, wireof x t v w -> wf w) /\
  (forall t l ws, wireofs x t l ws -> length ws = length l /\ all (fun u => vtype u = wt_of t /\ wf u) ws) /\
  (forall k v l ws, wireofm x k v l ws -> length ws = length l /\
     all (fun kv => (vtype (fst kv) = wt_of k /\ wf (fst kv)) /\ (vtype (snd kv) = wt_of v /\ wf (snd kv))) ws) /\
  (forall attrs ms fs, wireoff x attrs ms fs -> all (fun f => in_s 16 (fst f) /\ wf (snd f)) fs).
Proof.
  intros x. apply wireof_mut; intros; cbn [wf all]; try exact I; try assumption;
    try (split; [reflexivity|exact I]); try (split; assumption).
  - match goal with X : length _ = length _ /\ _ |- _ => destruct X as [L A] end. rewrite L. split; [apply wt_wire|auto].
  - match goal with X : length _ = length _ /\ _ |- _ => destruct X as [L A] end. rewrite L. split; [apply wt_wire|auto].
  - match goal with X : length _ = length _ /\ _ |- _ => destruct X as [L A] end. rewrite L. split; [apply wt_wire|split; [apply wt_wire|auto]].
  - match goal with X : length _ = length _ /\ _ |- _ => destruct X as [L A] end. split; [cbn; congruence|]. split; [|assumption]. split; [|assumption].
    eapply vtype_wt; eassumption.
  - match goal with X : length _ = length _ /\ _ |- _ => destruct X as [L A] end. split; [cbn; congruence|]. split; [|assumption]. cbn [fst snd].
    repeat split; try assumption; eapply vtype_wt; eassumption.
  - split; [|assumption]. split; assumption.
Qed.
Lemma wireof_wf : forall x t v w, wireof x t v w -> wf w.
Proof. intros x. apply (wireof_wf_all x). Qed.

(** It is unique. *)
Lemma wireof_fun_all : forall x,
  (forall t v w, wireof x t v w -> forall w', wireof x t v w' -> w = w') /\
  (forall t l ws, wireofs x t l ws -> forall ws', wireofs x t l ws' -> ws = ws') /\
  (forall k v l ws, wireofm x k v l ws -> forall ws', wireofm x k v l ws' -> ws = ws') /\
  (forall attrs ms fs, wireoff x attrs ms fs -> forall fs', wireoff x attrs ms fs' -> fs = fs').
Proof.
  intros x. apply wireof_mut; intros;
    match goal with
    | X : wireof _ _ _ ?w |- _ = ?w => inversion X; subst
    | X : wireofs _ _ _ ?w |- _ = ?w => inversion X; subst
    | X : wireofm _ _ _ _ ?w |- _ = ?w => inversion X; subst
    | X : wireoff _ _ _ ?w |- _ = ?w => inversion X; subst
    end; try reflexivity; try congruence; f_equal; eauto.
  - match goal with A : map_entries _ _ _ _ _ = _, B : map_entries _ _ _ _ _ = _ |- _ =>
      rewrite A in B; injection B as <- end. eauto.
  - f_equal; eauto.
  - f_equal; eauto.
Qed.
Lemma wireof_fun : forall x t v w w', wireof x t v w -> wireof x t v w' -> w = w'.
Proof. intros x t v w w' H. apply (proj1 (wireof_fun_all x)). assumption. Qed.

(** What goes through CoerceData unchanged. *)
Lemma coerce_same : forall x t u v, kept x t u -> same u v -> elem_ok t ->
  CoerceData x (wt_of t) v = Ok (v, true).
Proof.
  intros x t u v K Sm E. destruct K; inversion Sm; subst; try destruct E;
    try (apply coerce_native; constructor; assumption); try reflexivity.
Qed.

Lemma label_nondecimal : forall s c z, In c s -> (c < 48 \/ 57 < c) -> c <> 43 -> c <> 45 ->
  ~ decimal s z.
Proof.
  intros s c z Hin Hc H1 H2 D. destruct D as [s _ F|s _ F|s _ F]; rewrite Forall_forall in F.
  - specialize (F _ Hin). lia.
  - destruct Hin as [<-|Hin]; [lia|]. specialize (F _ Hin). lia.
  - destruct Hin as [<-|Hin]; [lia|]. specialize (F _ Hin). lia.
Qed.
Lemma enum_String_text : forall n cs z, exists c, In c (enum_String n cs z) /\ 57 < c.
Proof.
  intros n cs z. induction cs as [|[c y] cs IH]; cbn [enum_String].
  - exists 85. split; [cbn; tauto|lia].
  - destruct (z =? y); [|exact IH]. exists 95. split; [|lia].
    unfold enum_label. apply in_or_app. right. left. reflexivity.
Qed.
(** Map values only have to pass; they are stored as given. *)
Lemma coerce_value : forall x t u v, kept x t u -> same u v ->
  exists c, CoerceData x (wt_of t) v = Ok (c, true).
Proof.
  intros x t u v K Sm.
  assert (E : elem_ok t \/ ~ elem_ok t) by (destruct t; cbn; tauto).
  destruct E as [E|E]; [eexists; eapply coerce_same; eassumption|].
  destruct K; try (destruct E; exact I); try contradiction; inversion Sm; subst.
  - eexists. reflexivity.
  - destruct (enum_String_text n cs z) as (c & Hin & Hc).
    assert (P : exists i e, ParseInt (enum_String n cs z) 64 = (i, Some e)).
    { destruct (ParseInt (enum_String n cs z) 64) as [i [e|]] eqn:P; [eauto|].
      apply (proj1 (ParseInt_spec _ 64 i ltac:(lia))) in P as [D _].
      destruct (label_nondecimal _ c i Hin ltac:(lia) ltac:(lia) ltac:(lia) D). }
    destruct P as (i & e & P).
    exists (AInt32 (wraps 32 i)). cbn. unfold coerce_int, coerce_text. cbn [as_integer as_stringer].
    rewrite P. reflexivity.
Qed.

(** Filling containers. *)
Lemma pushes_ok : forall x et vs l, IsEmptyType et = false ->
  (forall v, In v vs -> CoerceData x et v = Ok (v, true)) ->
  pushes x (MkTl et l) vs = Ok (MkTl et (l ++ vs)).
Proof.
  intros x et vs. unfold pushes. induction vs as [|v vs IH]; intros l He Hv; cbn [fills].
  - rewrite app_nil_r. reflexivity.
  - unfold tl_Push at 1, tl_settype. cbn [tl_et tl_l]. rewrite He.
    rewrite Hv by (left; reflexivity). cbn [obind].
    rewrite IH; [rewrite <- app_assoc; reflexivity|assumption|intros; apply Hv; right; assumption].
Qed.
Lemma wt_not_empty : forall t, IsEmptyType (wt_of t) = false.
Proof. intros []; reflexivity. Qed.

Lemma gm_set_fresh : forall p m k v, (p =? BINARY) = false -> native p k ->
  (forall e, In e m -> native p (fst e)) -> ~ In (key k) (ekeys m) ->
  gm_set m k v = Ok (m ++ [(k, v)]).
Proof.
  intros p m k v Hp Hk. induction m as [|[k' v'] m IH]; intros Hm Hf; cbn [gm_set app]; [reflexivity|].
  rewrite (go_eq_native p) by (auto; apply (Hm (k', v')); left; reflexivity). cbn [obind].
  assert (E : str_eq (key k) (key k') = false).
  { apply str_eq_false. intros E. apply Hf. left. symmetry. exact E. }
  rewrite E, IH; [reflexivity|intros; apply Hm; right; assumption|].
  intros X. apply Hf. right. exact X.
Qed.
Lemma sets_ok : forall x cf k vt n kvs acc, key_ok k -> IsEmptyType vt = false ->
  (forall e, In e (acc ++ kvs) -> native (wt_of k) (fst e)) ->
  (forall e, In e kvs -> exists c, CoerceData x vt (snd e) = Ok (c, true)) ->
  NoDup (ekeys (acc ++ kvs)) ->
  sets x cf (MkTm (wt_of k) vt n [] acc) kvs = Ok (MkTm (wt_of k) vt n [] (acc ++ kvs)).
Proof.
  intros x cf k vt n kvs. unfold sets. induction kvs as [|[a b] kvs IH]; intros acc Hk Hvt Hn Hc Hd;
    cbn [fills].
  - rewrite app_nil_r. reflexivity.
  - assert (Na : native (wt_of k) a).
    { apply (Hn (a, b)). apply in_or_app. right. left. reflexivity. }
    destruct (Hc (a, b)) as [c Ec]; [left; reflexivity|].
    unfold tm_Set at 1. cbn [fst snd] in *. cbn [tm_kt tm_vt tm_size tm_l tm_b].
    assert (E1 : (wt_of k =? STOP) || (wt_of k =? VOID) = false) by (destruct k; destruct Hk; reflexivity).
    assert (E2 : (vt =? STOP) || (vt =? VOID) = false).
    { unfold IsEmptyType, mem in Hvt. cbn [existsb] in Hvt. rewrite orb_false_r in Hvt. exact Hvt. }
    assert (E3 : negb (IsBaseType (wt_of k)) || (wt_of k =? BINARY) = false) by (destruct k; destruct Hk; reflexivity).
    assert (E4 : (wt_of k =? BINARY) = false) by (destruct k; destruct Hk; reflexivity).
    rewrite E1, E2. rewrite (coerce_native x _ a Na). cbn [obind negb]. rewrite Ec. cbn [obind negb].
    rewrite E3, (native_not_nil _ _ Na).
    assert (E5 : key_typed (wt_of k) a = true) by (apply native_typed; assumption).
    rewrite E5. rewrite (gm_set_fresh (wt_of k)).
    + cbn [obind]. rewrite IH; try assumption.
      * rewrite <- app_assoc. reflexivity.
      * rewrite <- app_assoc. exact Hn.
      * intros e He. apply Hc. right. exact He.
      * rewrite <- app_assoc. exact Hd.
    + assumption.
    + assumption.
    + intros e He. apply Hn. apply in_or_app. left. exact He.
    + unfold ekeys in Hd. rewrite map_app in Hd. cbn [map fst] in Hd. apply NoDup_remove_2 in Hd.
      intros X. apply Hd. apply in_or_app. left. exact X.
Qed.

(** Setting attributes. *)
Lemma attr_set_ids : forall l id v, map fst (attr_set l id v) = map fst l.
Proof.
  induction l as [|[i w] l IH]; intros id v; cbn [attr_set map]; [reflexivity|].
  destruct (i =? id); cbn [map fst]; [|rewrite IH]; reflexivity.
Qed.
Lemma attr_set_get : forall l id v, In id (map fst l) -> attribute (attr_set l id v) id = v.
Proof.
  unfold attribute. induction l as [|[i w] l IH]; intros id v H; [destruct H|].
  cbn [attr_set]. destruct (Z.eqb_spec i id) as [->|N]; cbn [lookup_z].
  - rewrite Z.eqb_refl. reflexivity.
  - destruct (Z.eqb_spec id i) as [->|_]; [lia|]. apply IH. cbn [map fst In] in H. intuition lia.
Qed.
Lemma attr_set_other : forall l id v id', id' <> id -> attribute (attr_set l id v) id' = attribute l id'.
Proof.
  unfold attribute. induction l as [|[i w] l IH]; intros id v id' N; [reflexivity|].
  cbn [attr_set]. destruct (Z.eqb_spec i id) as [->|Ne]; cbn [lookup_z].
  - destruct (Z.eqb_spec id' id); [lia|reflexivity].
  - destruct (id' =? i); [reflexivity|]. apply IH, N.
Qed.
Lemma attribute_init : forall ms m, NoDup (map m_id ms) -> In m ms ->
  attribute (map (fun m => (m_id m, m_init m)) ms) (m_id m) = m_init m.
Proof.
  unfold attribute. induction ms as [|n ms IH]; intros m Hd Hm; [destruct Hm|].
  cbn [map lookup_z]. inversion Hd; subst. destruct Hm as [->|Hm].
  - rewrite Z.eqb_refl. reflexivity.
  - destruct (Z.eqb_spec (m_id m) (m_id n)) as [E|_]; [|apply IH; assumption].
    destruct H1. rewrite <- E. apply in_map. exact Hm.
Qed.

Lemma insert_ids : forall m l, Permutation (map m_id (insert_m m l)) (m_id m :: map m_id l).
Proof.
  induction l as [|n l IH]; cbn [insert_m map]; [reflexivity|].
  destruct (m_id m <? m_id n); cbn [map]; [reflexivity|].
  rewrite IH. apply perm_swap.
Qed.
Lemma sorted_ids : forall ms, Permutation (map m_id (sorted_members ms)) (map m_id ms).
Proof.
  induction ms as [|m ms IH]; cbn [sorted_members map]; [reflexivity|].
  rewrite insert_ids. constructor. exact IH.
Qed.

Definition ue (b : bool) (w : tval) : tval := if b then untyped_empty w else w.

Section Round.
Variable x : ext.
Variable cf : nat.
Hypothesis order_perm : forall tag l, Permutation l (x_order x tag l).

Definition round (t : ty) (v : any) : Prop :=
  exists w, wireof x t v w /\ forall b, exists v', reads x cf t (ue b w) v' /\ same v v'.

Lemma round_list : forall t l, (forall u, In u l -> round t u) ->
  exists ws, wireofs x t l ws /\
    forall b, exists vs, readss x cf t (map (ue b) ws) vs /\ Forall2 same l vs.
Proof.
  intros t. induction l as [|u l IH]; intros H.
  - exists []. split; [constructor|]. intros b. exists []. split; constructor.
  - destruct (H u (or_introl eq_refl)) as (w & W & R).
    destruct IH as (ws & Ws & Rs); [intros; apply H; right; assumption|].
    exists (w :: ws). split; [constructor; assumption|]. intros b.
    destruct (R b) as (v' & R1 & S1). destruct (Rs b) as (vs & R2 & S2).
    exists (v' :: vs). split; [cbn [map]; constructor; assumption|constructor; assumption].
Qed.

Lemma round_map : forall k v l, key_ok k ->
  (forall u, In u (map fst l) -> kept x k u) ->
  (forall u, In u (map fst l) -> round k u) -> (forall u, In u (map snd l) -> round v u) ->
  exists ws, wireofm x k v l ws /\
    forall b, exists kvs, readsm x cf k v (map (fun e => (ue b (fst e), ue b (snd e))) ws) kvs /\
      Forall2 (fun e e' => fst e = fst e' /\ same (snd e) (snd e')) l kvs.
Proof.
  intros k v l Hk. induction l as [|[a c] l IH]; intros H0 H1 H2.
  - exists []. split; [constructor|]. intros b. exists []. split; constructor.
  - destruct (H1 a (or_introl eq_refl)) as (wa & Wa & Ra).
    destruct (H2 c (or_introl eq_refl)) as (wc & Wc & Rc).
    destruct IH as (ws & Ws & Rs); try (intros; (apply H0 || apply H1 || apply H2); right; assumption).
    exists ((wa, wc) :: ws). split; [constructor; assumption|]. intros b.
    destruct (Ra b) as (a' & Ra1 & Sa). destruct (Rc b) as (c' & Rc1 & Sc).
    destruct (Rs b) as (kvs & R2 & S2).
    assert (Ea : a' = a).
    { assert (Ka : kept x k a) by (apply H0; left; reflexivity).
      destruct Ka; destruct Hk; inversion Sa; reflexivity. }
    subst a'. exists ((a, c') :: kvs). split; [cbn [map fst snd]; constructor; assumption|].
    constructor; [split; [reflexivity|assumption]|assumption].
Qed.

(** The reader's members [ms] may be some only of the writer's. *)
Lemma round_fields : forall ms attrs sms,
  NoDup (map m_id sms) ->
  (forall m, In m sms -> in_s 16 (m_id m) /\ (In m ms \/ forall n, In n ms -> m_id n <> m_id m)) ->
  (forall m, In m sms -> gemits m (attribute attrs (m_id m)) = true ->
     exists w, wireof x (m_ty m) (attribute attrs (m_id m)) w /\
       (In m ms -> forall b, exists v', reads x cf (m_ty m) (ue b w) v' /\
                                       same (attribute attrs (m_id m)) v')) ->
  exists fs, wireoff x attrs sms fs /\
    forall b a0, map fst a0 = map m_id ms ->
    exists a1, readsf x cf ms a0 (map (fun f => (fst f, ue b (snd f))) fs) a1 /\
      map fst a1 = map m_id ms /\
      (forall id, ~ In id (map m_id sms) -> attribute a1 id = attribute a0 id) /\
      forall m, In m sms -> In m ms ->
        if gemits m (attribute attrs (m_id m))
        then same (attribute attrs (m_id m)) (attribute a1 (m_id m))
        else attribute a1 (m_id m) = attribute a0 (m_id m).
Proof.
  intros ms attrs sms. induction sms as [|m sms IH]; intros Hds Hin Hr.
  - exists []. split; [constructor|]. intros b a0 Ha. exists a0. split; [constructor|].
    split; [assumption|]. split; [reflexivity|]. intros m [].
  - inversion Hds as [|? ? Hni Hds']; subst.
    destruct IH as (fs & Wf & Rf).
    { assumption. } { intros n Hn. apply Hin. right. exact Hn. }
    { intros n Hn. apply Hr. right. exact Hn. }
    destruct (Hin m (or_introl eq_refl)) as [Hid Hm].
    destruct (gemits m (attribute attrs (m_id m))) eqn:G.
    + destruct (Hr m (or_introl eq_refl) G) as (w & W & R).
      exists ((m_id m, w) :: fs). split; [apply wof_take; assumption|]. intros b a0 Ha.
      destruct Hm as [Hm|Hm].
      * destruct (R Hm b) as (v' & R1 & S1).
        destruct (Rf b (attr_set a0 (m_id m) v')) as (a1 & Q1 & Q2 & Q3 & Q4).
        { rewrite attr_set_ids. exact Ha. }
        assert (Hm0 : In (m_id m) (map fst a0)) by (rewrite Ha; apply in_map; exact Hm).
        exists a1. split; [|split; [exact Q2|split]].
        -- cbn [map fst snd]. eapply ref_known; [exact Hm|reflexivity|exact R1|exact Q1].
        -- intros id Hn. cbn [map In] in Hn. rewrite Q3 by tauto. apply attr_set_other. intuition.
        -- intros n [<-|Hn] Hms.
           ++ rewrite G. rewrite Q3 by assumption. rewrite attr_set_get by assumption. exact S1.
           ++ specialize (Q4 n Hn Hms). destruct (gemits n _); [exact Q4|].
              rewrite Q4. apply attr_set_other. intros E. apply Hni. rewrite <- E. apply in_map. exact Hn.
      * destruct (Rf b a0 Ha) as (a1 & Q1 & Q2 & Q3 & Q4).
        exists a1. split; [|split; [exact Q2|split]].
        -- cbn [map fst snd]. apply ref_unknown; [exact Hm|exact Q1].
        -- intros id Hn. apply Q3. intros X. apply Hn. right. exact X.
        -- intros n [<-|Hn] Hms; [destruct (Hm m Hms eq_refl)|apply Q4; assumption].
    + exists fs. split; [apply wof_skip; assumption|]. intros b a0 Ha.
      destruct (Rf b a0 Ha) as (a1 & Q1 & Q2 & Q3 & Q4).
      exists a1. split; [exact Q1|]. split; [exact Q2|]. split.
      * intros id Hn. apply Q3. intros X. apply Hn. right. exact X.
      * intros n [<-|Hn] Hms; [|apply Q4; assumption]. rewrite G. apply Q3, Hni.
Qed.

Lemma F2_in : forall A B (P : A -> B -> Prop) l m, Forall2 P l m ->
  forall b, In b m -> exists a, In a l /\ P a b.
Proof.
  induction 1; intros z Hz; [destruct Hz|]. destruct Hz as [<-|Hz].
  - eexists. split; [left; reflexivity|assumption].
  - destruct (IHForall2 z Hz) as (a & Ha & Hp). exists a. split; [right; exact Ha|exact Hp].
Qed.

Theorem kept_round : forall t v, kept x t v -> schema_ok t -> round t v.
Proof.
  intros t v K. induction K; intros So; unfold round;
    try (eexists; split; [constructor; assumption|intros b0; destruct b0; eexists; (split; [constructor|constructor; reflexivity])]).
  - (* list *)
    inversion So; subst. destruct (round_list t l) as (ws & W & R); [intros; auto|].
    exists (VList (wt_of t) ws). split; [constructor; assumption|]. intros b.
    destruct (R b) as (vs & R1 & S1). exists (AList 0 (wt_of t) vs). split; [|constructor; exact S1].
    replace (ue b (VList (wt_of t) ws)) with (VList (wt_of t) (map (ue b) ws))
      by (destruct b; cbn [ue untyped_empty]; [|f_equal; apply map_id]; reflexivity).
    eapply (re_list x cf t _ _ vs (MkTl (wt_of t) vs)); [exact R1|].
    unfold NewTList. rewrite pushes_ok; [reflexivity|apply wt_not_empty|].
    intros v Hv. destruct (F2_in _ _ _ _ _ S1 v Hv) as (u & Hu & Su).
    eapply coerce_same; eauto.
  - (* set *)
    inversion So; subst. destruct (round_list t l) as (ws & W & R); [intros; auto|].
    exists (VSet (wt_of t) ws). split; [constructor; [assumption|lia|assumption]|]. intros b.
    destruct (R b) as (vs & R1 & S1).
    exists (ASet 0 (wt_of t) (Z.of_nat (length (map (ue b) ws))) vs). split; [|constructor; exact S1].
    replace (ue b (VSet (wt_of t) ws)) with (VSet (wt_of t) (map (ue b) ws))
      by (destruct b; cbn [ue untyped_empty]; [|f_equal; apply map_id]; reflexivity).
    eapply (re_set x cf t _ _ vs (MkTs (wt_of t) (Z.of_nat (length (map (ue b) ws))) vs)); [exact R1|].
    unfold NewTSet, adds. destruct S1 as [|u v l vs Su S1]; [reflexivity|].
    destruct S1 as [|? ? ? ?]; [|cbn [length] in H0; lia]. cbn [fills]. unfold ts_Add. cbn [ts_et ts_size ts_l].
    erewrite coerce_same; [reflexivity| |exact Su|assumption]. apply H2. left. reflexivity.
  - (* map *)
    inversion So; subst.
    pose proof (order_perm (2 * a) b) as P. set (es := x_order x (2 * a) b) in *.
    assert (Pk : Permutation (map fst b) (map fst es)) by (apply Permutation_map; exact P).
    assert (Pv : Permutation (map snd b) (map snd es)) by (apply Permutation_map; exact P).
    destruct (round_map k v es) as (ws & W & R).
    { assumption. }
    { intros u Hu. apply H3. eapply Permutation_in; [symmetry; exact Pk|exact Hu]. }
    { intros u Hu. apply H4; [|assumption]. eapply Permutation_in; [symmetry; exact Pk|exact Hu]. }
    { intros u Hu. apply H6; [|assumption]. eapply Permutation_in; [symmetry; exact Pv|exact Hu]. }
    exists (VMap (wt_of k) (wt_of v) ws). split.
    { eapply wo_map; [| | |exact W].
      - destruct k; destruct H; reflexivity.
      - rewrite <- (Permutation_length P). destruct k; destruct H; reflexivity.
      - rewrite <- (Permutation_length P). assumption. }
    intros bb. destruct (R bb) as (kvs & R1 & S1).
    assert (Keys : map fst kvs = map fst es).
    { clear -S1. induction S1 as [|? ? ? ? [E _] _ IH]; [reflexivity|]. cbn [map]. congruence. }
    assert (Go : forall n vt', vt' = wt_of v ->
      sets x cf (MkTm (wt_of k) vt' n [] []) kvs = Ok (MkTm (wt_of k) vt' n [] kvs)).
    { intros n vt' ->. rewrite sets_ok; try assumption; cbn [app]; [reflexivity|apply wt_not_empty| | |].
      - intros e He. apply H2. eapply Permutation_in; [symmetry; exact Pk|]. rewrite <- Keys.
        apply in_map. exact He.
      - intros e He. destruct (F2_in _ _ _ _ _ S1 e He) as (e0 & He0 & _ & Se).
        eapply coerce_value; [|exact Se]. apply H5. eapply Permutation_in; [symmetry; exact Pv|].
        apply in_map. exact He0.
      - unfold ekeys in *. rewrite <- (map_map fst key), Keys, map_map.
        eapply Permutation_NoDup; [|exact H1]. apply Permutation_map. exact P. }
    assert (U : ue bb (VMap (wt_of k) (wt_of v) ws) =
                VMap (wt_of k) (wt_of v) (map (fun e => (ue bb (fst e), ue bb (snd e))) ws) \/
                ws = [] /\ ue bb (VMap (wt_of k) (wt_of v) ws) = VMap STOP STOP []).
    { destruct bb; cbn [ue]; [destruct ws; [right; split; reflexivity|left; reflexivity]|].
      left. f_equal. symmetry. rewrite <- (map_id ws) at 2. apply map_ext. intros []; reflexivity. }
    destruct U as [U|[-> U]]; rewrite U.
    + eexists. split.
      * eapply re_map; [exact R1|]. unfold NewTMap. apply Go. reflexivity.
      * cbn [tm_kt tm_vt tm_size tm_l tm_b]. eapply same_map; [exact P|exact S1].
    + inversion R1; subst. eexists. split; [eapply re_map; [constructor|reflexivity]|].
      cbn [NewTMap tm_kt tm_vt tm_size tm_l tm_b]. eapply same_map; [exact P|exact S1].
  - (* struct *)
    inversion So as [| | | | | | | | | | | |? ? Mok Sok]; subst.
    destruct Mok as (Nid & Nnm & Mo).
    destruct (round_fields ms attrs (sorted_members ms)) as (fs & W & R).
    { eapply Permutation_NoDup; [symmetry; apply sorted_ids|assumption]. }
    { intros m Hm. apply (proj1 (in_sorted m ms)) in Hm. split; [|left; assumption].
      destruct (Mo m Hm) as [_ B]. unfold in_s. change (2 ^ (16 - 1)) with (2 ^ 15). lia. }
    { intros m Hm G. apply (proj1 (in_sorted m ms)) in Hm.
      destruct (H1 m Hm G (Sok m Hm)) as (w & W1 & R1). exists w. auto. }
    exists (VStruct fs). split; [constructor; assumption|]. intros b.
    destruct (R b (map (fun m => (m_id m, m_init m)) ms)) as (a1 & Q1 & Q2 & Q3 & Q4).
    { rewrite map_map. reflexivity. }
    exists (AStruct 0 name (fc_of ms) a1). split.
    + replace (ue b (VStruct fs)) with (VStruct (map (fun f => (fst f, ue b (snd f))) fs)).
      * constructor. exact Q1.
      * destruct b; [reflexivity|]. cbn [ue]. f_equal. rewrite <- (map_id fs) at 2. apply map_ext.
        intros []; reflexivity.
    + constructor; [congruence|]. intros id Hid. rewrite H in Hid. apply in_map_iff in Hid.
      destruct Hid as (m & <- & Hm). specialize (Q4 m (proj2 (in_sorted m ms) Hm) Hm).
      destruct (gemits m (attribute attrs (m_id m))) eqn:G; [exact Q4|].
      rewrite Q4, attribute_init by assumption. apply H2; assumption.
Qed.

(** A reader of some of the writer's members. *)
Theorem subset_round : forall name name' ms ms' a fc attrs,
  kept x (TyStruct name ms) (AStruct a name fc attrs) -> schema_ok (TyStruct name ms) ->
  incl ms' ms ->
  exists w, wireof x (TyStruct name ms) (AStruct a name fc attrs) w /\
    forall b, exists attrs', reads x cf (TyStruct name' ms') (ue b w) (AStruct 0 name' (fc_of ms') attrs') /\
      map fst attrs' = map m_id ms' /\
      forall m, In m ms' -> NoDup (map m_id ms') ->
        same (attribute attrs (m_id m)) (attribute attrs' (m_id m)).
Proof.
  intros name name' ms ms' a fc attrs K So Hi.
  inversion So as [| | | | | | | | | | | |? ? Mok Sok]; subst. destruct Mok as (Nid & Nnm & Mo).
  inversion K as [| | | | | | | | | | | |? ? ? ? ? E1 E2 E3]; subst.
  assert (U : forall m n, In m ms -> In n ms -> m_id m = m_id n -> m = n).
  { clear -Nid. induction ms as [|k ms IH]; intros m n Hm Hn E; [destruct Hm|].
    inversion Nid; subst. destruct Hm as [->|Hm], Hn as [->|Hn]; auto.
    - destruct H1. rewrite E. apply in_map. exact Hn.
    - destruct H1. rewrite <- E. apply in_map. exact Hm. }
  destruct (round_fields ms' attrs (sorted_members ms)) as (fs & W & R).
  { eapply Permutation_NoDup; [symmetry; apply sorted_ids|assumption]. }
  { intros m Hm. apply (proj1 (in_sorted m ms)) in Hm. split.
    { destruct (Mo m Hm) as [_ B]. unfold in_s. change (2 ^ (16 - 1)) with (2 ^ 15). lia. }
    destruct (in_dec Z.eq_dec (m_id m) (map m_id ms')) as [I|I].
    - left. apply in_map_iff in I as (n & En & Hn). rewrite (U m n); auto.
    - right. intros n Hn E. apply I. rewrite <- E. apply in_map. exact Hn. }
  { intros m Hm G. apply (proj1 (in_sorted m ms)) in Hm.
    destruct (kept_round _ _ (E2 m Hm G) (Sok m Hm)) as (w & W1 & R1). exists w. auto. }
  exists (VStruct fs). split; [constructor; assumption|]. intros b.
  destruct (R b (map (fun m => (m_id m, m_init m)) ms')) as (a1 & Q1 & Q2 & Q3 & Q4).
  { rewrite map_map. reflexivity. }
  exists a1. split; [|split; [exact Q2|]].
  - replace (ue b (VStruct fs)) with (VStruct (map (fun f => (fst f, ue b (snd f))) fs)).
    + constructor. exact Q1.
    + destruct b; [reflexivity|]. cbn [ue]. f_equal. rewrite <- (map_id fs) at 2. apply map_ext.
      intros []; reflexivity.
  - intros m Hm Nd. specialize (Q4 m (proj2 (in_sorted m ms) (Hi _ Hm)) Hm).
    destruct (gemits m (attribute attrs (m_id m))) eqn:G; [exact Q4|].
    rewrite Q4, attribute_init by assumption. apply E3; auto.
Qed.
End Round.
