(** Properties of typedefs in generated code: C106. *)
From Coq Require Import ZArith List Bool Lia Permutation.
From Coq Require Import ZifyBool ZifyNat.
From Verif Require Import Base Errors Transport Proto Skip Arith Values Access Codec BinarySpec Binary BinaryProofs TransportProofs WfDec.
From Verif Require Import F64 Strconv TField GoVal Compare CoerceProofs TList TSet TMap Gen GenSpec GenProofs GenInst GenRound PropGen Typedef.
Import ListNotations.
Open Scope Z_scope.

(** ** What the claims are about *)

(** The elements of a container are of a type of their own: a typedef of a base type or an enum. *)
Definition own_type (e : dty) : bool := match e with DTypedef _ _ => is_scalar (resolve e) | _ => false end.
(** No container inside has such elements. *)
Fixpoint known_elems (t : dty) : bool :=
  match t with
  | DTy _ => true
  | DList e | DSet e => negb (own_type e) && known_elems e
  | DMap k v => negb (own_type k) && known_elems k && (negb (own_type v) && known_elems v)
  | DStruct _ ms => forallb known_elems_m ms
  | DTypedef _ t => known_elems t
  end
with known_elems_m (m : dmember) : bool := match m with DMem _ _ _ _ t => known_elems t end.
(** A member that is not optional, of a typedef of an enum, that was never set. *)
Definition unset_alias (m : dmember) (v : any) : Prop :=
  dm_opt m = false /\ (exists a t, dm_ty m = DTypedef a t) /\
  (exists tag n cs, resolve (dm_ty m) = TyEnum tag n cs) /\ exists tag str, v = AEnum tag enum_unset str.
(** No such member anywhere in a value. *)
Fixpoint all_set (t : dty) (v : any) : Prop :=
  match t with
  | DTy _ => True
  | DList e => match v with AList _ _ l => Forall (all_set e) l | _ => True end
  | DSet e => match v with ASet _ _ _ l => Forall (all_set e) l | _ => True end
  | DMap k w => match v with
                | AMap _ _ _ _ l b => Forall (fun kv => all_set k (fst kv) /\ all_set w (snd kv)) (l ++ b)
                | _ => True
                end
  | DStruct _ ms => match v with
                    | AStruct _ _ _ attrs => fold_right (fun m rest => all_set_m m (attribute attrs (dm_id m)) /\ rest) True ms
                    | _ => True
                    end
  | DTypedef _ t => all_set t v
  end
with all_set_m (m : dmember) (v : any) : Prop :=
  match m with DMem i n o d t => ~ unset_alias (DMem i n o d t) v /\ all_set t v end.

(** ** Resolving *)
Lemma all_in : forall A (P : A -> Prop) l, fold_right (fun a rest => P a /\ rest) True l -> forall a, In a l -> P a.
Proof. intros A P. induction l as [|b l IH]; [intros _ a []|]. intros [H1 H2] a [<-|H]; auto. Qed.
Lemma resolve_true : forall t, resolve (get_true_type t) = resolve t.
Proof. fix IH 1. destruct t; cbn; auto. Qed.
Lemma known_true : forall t, known_elems (get_true_type t) = known_elems t.
Proof. fix IH 1. destruct t; cbn; auto. Qed.
Lemma all_set_true : forall t v, all_set (get_true_type t) v = all_set t v.
Proof. fix IH 1. destruct t; cbn; auto. Qed.
Lemma true_no_alias : forall t a u, get_true_type t <> DTypedef a u.
Proof. fix IH 1. destruct t; cbn; intros; try discriminate. apply IH. Qed.
Lemma known_elem : forall N e v, own_type e = false -> elem_value N e v = v /\ elem_assert N e v = Some v.
Proof. intros N e v E. destruct e; cbn in *; auto. rewrite E. auto. Qed.
Lemma m_id_res : forall m, m_id (resolve_m m) = dm_id m. Proof. intros [i n o d t]. reflexivity. Qed.
Lemma m_ty_res : forall m, m_ty (resolve_m m) = resolve (dm_ty m). Proof. intros [i n o d t]. reflexivity. Qed.
Lemma m_opt_res : forall m, m_opt (resolve_m m) = dm_opt m. Proof. intros [i n o d t]. reflexivity. Qed.
Lemma sorted_res : forall ms, map resolve_m (sorted_dmembers ms) = sorted_members (map resolve_m ms).
Proof.
  induction ms as [|m ms IH]; [reflexivity|]. cbn [sorted_dmembers sorted_members map]. rewrite <- IH.
  clear IH.   induction (sorted_dmembers ms) as [|n l IHl]; [reflexivity|]. cbn [insert_dm insert_m map]. rewrite !m_id_res.
  destruct (dm_id m <? dm_id n); [reflexivity|]. cbn [map]. rewrite IHl. reflexivity.
Qed.
Lemma in_dsorted : forall m ms, In m (sorted_dmembers ms) -> In m ms.
Proof.
  intros m ms. induction ms as [|n ms IH]; [intros []|]. cbn [sorted_dmembers]. intro H.
  assert (G : forall l, In m (insert_dm n l) -> m = n \/ In m l).
  { induction l as [|k l IHl]; cbn [insert_dm]; [intros [<-|[]]; auto|].
    destruct (dm_id n <? dm_id k); [intros [<-|H1]; auto|]. intros [<-|H1]; [right; left; reflexivity|].
    destruct (IHl H1); [auto|right; right; assumption]. }
  destruct (G _ H) as [->|H1]; [left; reflexivity|right; auto].
Qed.

(** ** Reading *)
Lemma bind_ext : forall S A B (m1 m2 : hop S A) (k1 k2 : A -> hop S B) s,
  m1 s = m2 s -> (forall a s', k1 a s' = k2 a s') -> hbind m1 k1 s = hbind m2 k2 s.
Proof.
  intros S A B m1 m2 k1 k2 s E K. unfold hbind. rewrite E. destruct (m2 s) as [[[a|e] s']| |]; cbn; auto.
Qed.
Lemma wrap_ext : forall S A (m1 m2 : hop S A) s, m1 s = m2 s -> hwrap m1 s = hwrap m2 s.
Proof. intros S A m1 m2 s E. unfold hwrap. rewrite E. reflexivity. Qed.
Lemma fill_ext : forall S A B (e1 e2 : hop S B) (put : A -> B -> outcome A), (forall s, e1 s = e2 s) ->
  forall n a s, gfill n e1 put a s = gfill n e2 put a s.
Proof.
  intros S A B e1 e2 put E. induction n as [|n IH]; intros a s; [reflexivity|]. cbn [gfill].
  apply bind_ext; [apply E|]. intros v s'. apply bind_ext; [reflexivity|]. intros. apply IH.
Qed.
Lemma bind_ret : forall S A (m : hop S A) s, (v <-- m ;; hret v) s = m s.
Proof. intros S A m s. unfold hbind. destruct (m s) as [[[a|e] s']| |]; reflexivity. Qed.

Section Read.
Context {S : Type}.
Variable N : naming.
Variable R : rproto S.
Variable x : ext.
Variable M : Z.
Variable cf : nat.

Lemma elem_read : forall e (m1 m2 : hop S any) s, own_type e = false -> m1 s = m2 s ->
  (v <-- m1 ;; hret (elem_value N e v)) s = m2 s.
Proof.
  intros e m1 m2 s O E. rewrite <- (bind_ret _ _ m2). apply bind_ext; [exact E|]. intros v s'.
  rewrite (proj1 (known_elem N e v O)). reflexivity.
Qed.
Lemma dread_all : forall f,
  (forall t s, known_elems t = true -> dread N R x M cf f t s = gread R x M cf f (resolve t) s) /\
  (forall ms attrs s, forallb known_elems_m ms = true ->
     dread_fields N R x M cf f ms attrs s = gread_fields R x M cf f (map resolve_m ms) attrs s).
Proof.
  induction f as [|f [IHt IHm]]; (split; [intros t s K|intros ms attrs s K]); [reflexivity|reflexivity| |].
  - rewrite <- known_true in K. rewrite <- resolve_true. cbn [dread].
    destruct (get_true_type t) as [u|e|e|k v|name ms|a u] eqn:E; [reflexivity| | | | |destruct (true_no_alias _ _ _ E)];
      cbn [resolve gread]; cbn [known_elems] in K.
    + apply andb_prop in K as [K1 K2]. apply negb_true_iff in K1.
      apply bind_ext; [reflexivity|]. intros [t0 n] s1. apply bind_ext; [|reflexivity].
      apply fill_ext. intro s2. apply elem_read; auto.
    + apply andb_prop in K as [K1 K2]. apply negb_true_iff in K1.
      apply bind_ext; [reflexivity|]. intros [t0 n] s1. apply bind_ext; [|reflexivity].
      apply fill_ext. intro s2. apply elem_read; auto.
    + apply andb_prop in K as [Kk Kv]. apply andb_prop in Kk as [Kk1 Kk2]. apply andb_prop in Kv as [Kv1 Kv2].
      apply negb_true_iff in Kk1, Kv1.
      apply bind_ext; [reflexivity|]. intros [[t0 u0] n] s1. apply bind_ext; [|reflexivity].
      apply fill_ext. intro s2. apply bind_ext; [auto|]. intros a s3. apply bind_ext; [auto|]. intros b s4.
      rewrite (proj1 (known_elem N k a Kk1)), (proj1 (known_elem N v b Kv1)). reflexivity.
    + apply bind_ext; [reflexivity|]. intros _ s1. apply bind_ext; [auto|]. reflexivity.
  - cbn [dread_fields gread_fields]. apply bind_ext; [reflexivity|]. intros [[fn ft] fi] s1.
    cbv zeta. set (id := if fi <? 0 then _ else _). set (nm := if fi <? 0 then _ else _).
    set (tid := if ft =? GENERIC then _ else _). destruct (tid =? STOP); [reflexivity|].
    apply bind_ext; [|intros a s2; apply bind_ext; [reflexivity|intros; apply IHm, K]].
    assert (F : find (fun m => (id =? m_id m) || str_eq nm (m_name m)) (map resolve_m ms) =
                option_map resolve_m (find (fun m => (id =? dm_id m) || str_eq nm (m_name (resolve_m m))) ms)).
    { clearbody id nm. clear. induction ms as [|m ms IH]; [reflexivity|]. cbn [map find]. rewrite m_id_res.
      destruct ((id =? dm_id m) || str_eq nm (m_name (resolve_m m))); [reflexivity|exact IH]. }
    rewrite F. destruct (find _ ms) as [m|] eqn:Em; cbn [option_map]; [|reflexivity].
    rewrite m_ty_res, m_id_res. destruct (negb _ && _); [reflexivity|].
    apply bind_ext; [|reflexivity]. apply wrap_ext. apply IHt. apply find_some in Em as [Hm _].
    rewrite forallb_forall in K. specialize (K m Hm). destruct m as [i n o d u]. exact K.
Qed.
End Read.

(** ** Writing *)
Lemma seq_ext : forall S (a1 a2 b1 b2 : wop S) s, a1 s = a2 s -> (forall s', b1 s' = b2 s') -> (a1 >>> b1) s = (a2 >>> b2) s.
Proof. intros S a1 a2 b1 b2 s E K. unfold wseq. rewrite E. destruct (a2 s) as [[[e|] s']| |]; cbn; auto. Qed.
Lemma seqs_ext : forall S A B (g1 : A -> wop S) (g2 : B -> wop S) (h : A -> B) l s,
  (forall a s', In a l -> g1 a s' = g2 (h a) s') -> wseqs (map g1 l) s = wseqs (map g2 (map h l)) s.
Proof.
  intros S A B g1 g2 h. induction l as [|a l IH]; intros s K; [reflexivity|]. cbn [map wseqs].
  apply seq_ext; [apply K; left; reflexivity|]. intro s'. apply IH. intros. apply K. right. assumption.
Qed.
Lemma wwrap_ext : forall S (m1 m2 : wop S) s, m1 s = m2 s -> wwrap m1 s = wwrap m2 s.
Proof. intros S m1 m2 s E. unfold wwrap. rewrite E. reflexivity. Qed.

Section Write.
Context {S : Type}.
Variable N : naming.
Variable W : wproto S.
Variable x : ext.
Hypothesis Ho : orders x.

(** Emission differs only for a member that was never set. *)
Lemma emits_same : forall m v, ~ unset_alias m v -> demits m v = gemits (resolve_m m) v.
Proof.
  intros m v U. unfold demits, gemits. rewrite m_ty_res, m_opt_res. f_equal.
  destruct (dm_opt m) eqn:Eo; [reflexivity|]. cbn [orb].
  destruct m as [i n o d t]. cbn in *. subst o. destruct t as [u|e|e|k w|nm ms|a u].
  - destruct u; reflexivity.
  - reflexivity.
  - reflexivity.
  - reflexivity.
  - reflexivity.
  - cbn [is_enum_here resolve negb orb].
    destruct (resolve u) as [| | | | | | | |tag nm cs| | | |] eqn:Er; try reflexivity.
    cbn [negb orb]. unfold gisset; cbn [m_ty]; try rewrite Er.
    destruct v as [| | | | | | | | | | | | | | | | |ty z str| | | | | | |]; try reflexivity.
    destruct (Z.eqb_spec z enum_unset) as [->|]; [|reflexivity]. exfalso. apply U.
    split; [reflexivity|]. split; [exists a, u; reflexivity|]. split; [exists tag, nm, cs; exact Er|]. exists ty, str. reflexivity.
Qed.

Lemma dwrite_all : forall f,
  (forall t v s, known_elems t = true -> all_set t v -> dwrite N W x f t v s = gwrite W x f (resolve t) v s) /\
  (forall m v s, known_elems_m m = true -> all_set_m m v -> dwrite_field N W x f m v s = gwrite_field W x f (resolve_m m) v s).
Proof.
  induction f as [|f [IHt IHm]]; (split; [intros t v s K A|intros m v s K A]); [reflexivity|reflexivity| |].
  - rewrite <- known_true in K. rewrite <- all_set_true in A. rewrite <- resolve_true. cbn [dwrite].
    destruct (get_true_type t) as [u|e|e|k w|name ms|a u] eqn:E; [reflexivity| | | | |destruct (true_no_alias _ _ _ E)];
      cbn [resolve gwrite]; cbn [known_elems all_set] in K, A.
    + apply andb_prop in K as [K1 K2]. apply negb_true_iff in K1. destruct v; try reflexivity.
      apply seq_ext; [reflexivity|]. intro s1. apply seq_ext; [|reflexivity].
      rewrite <- (map_id l) at 2. apply seqs_ext. intros u s2 Hu. rewrite (proj2 (known_elem N e u K1)).
      apply IHt; [exact K2|]. rewrite Forall_forall in A. auto.
    + apply andb_prop in K as [K1 K2]. apply negb_true_iff in K1. destruct v; try reflexivity.
      apply seq_ext; [reflexivity|]. intro s1. apply seq_ext; [|reflexivity].
      rewrite <- (map_id l) at 2. apply seqs_ext. intros u s2 Hu. rewrite (proj2 (known_elem N e u K1)).
      apply IHt; [exact K2|]. rewrite Forall_forall in A. auto.
    + apply andb_prop in K as [Kk Kv]. apply andb_prop in Kk as [Kk1 Kk2]. apply andb_prop in Kv as [Kv1 Kv2].
      apply negb_true_iff in Kk1, Kv1. destruct v; try reflexivity.
      apply seq_ext; [reflexivity|]. intro s1. apply seq_ext; [|reflexivity].
      destruct (map_entries x (2 * a) kt l b) as [es| |] eqn:Es; cbn [obind]; try reflexivity.
      assert (Sub : forall kv, In kv es -> In kv (l ++ b)).
      { intros kv Hk. apply in_app_iff. unfold map_entries in Es.
        destruct (mem kt [STOP; VOID]); [injection Es as <-; destruct Hk|].
        destruct (mem kt [BOOL; BYTE; I16; I32; I64; DOUBLE; STRING; UTF8; UTF16]).
        - injection Es as <-. right. eapply Permutation_in; [apply Permutation_sym, Ho|exact Hk].
        - destruct (mem kt [BINARY; STRUCT; LIST; SET]); [|discriminate]. injection Es as <-. auto. }
      rewrite Forall_forall in A.
      rewrite <- (map_id es) at 2. apply seqs_ext. intros kv s2 Hk.
      rewrite (proj2 (known_elem N k (fst kv) Kk1)), (proj2 (known_elem N w (snd kv) Kv1)).
      destruct (A kv (Sub kv Hk)) as [A1 A2]. apply seq_ext; [auto|]. intro s3. auto.
    + destruct v; try reflexivity. destruct (str_eq name name0); [|reflexivity].
      apply seq_ext; [reflexivity|]. intro s1. apply seq_ext; [|reflexivity].
      rewrite <- sorted_res. apply seqs_ext. intros m s2 Hm. apply in_dsorted in Hm. rewrite m_id_res.
      rewrite forallb_forall in K. apply IHm; [auto|]. exact (all_in _ _ _ A _ Hm).
  - cbn [dwrite_field gwrite_field]. destruct m as [i n o d t]. cbn [all_set_m] in A. destruct A as [A1 A2].
    rewrite (emits_same _ _ A1). destruct (gemits _ v); [|reflexivity]. cbn [resolve_m m_name m_ty m_id dm_ty dm_id].
    apply seq_ext; [reflexivity|]. intro s1. apply seq_ext; [|reflexivity]. apply wwrap_ext. apply IHt; assumption.
Qed.
End Write.

(** ** Typedefs of base types and enums *)
Lemma scalar_true : forall t, is_scalar (resolve t) = true -> get_true_type t = DTy (resolve t).
Proof. fix IH 1. destruct t; cbn; intros H; try discriminate; [reflexivity|auto]. Qed.
Lemma scalar_known : forall t, is_scalar (resolve t) = true -> known_elems t = true.
Proof. intros t H. rewrite <- known_true, (scalar_true t H). reflexivity. Qed.
Lemma scalar_schema : forall u, is_scalar u = true -> schema_ok u.
Proof. destruct u; cbn; intro H; try discriminate; constructor. Qed.
Lemma run_seq : forall S (a b : wop S) s s1, a s = Ok (None, s1) -> (a >>> b) s = b s1.
Proof. intros S a b s s1 H. unfold wseq. rewrite H. reflexivity. Qed.
Lemma run_wrap : forall S (a : wop S) s s1, a s = Ok (None, s1) -> wwrap a s = Ok (None, s1).
Proof. intros S a s s1 H. unfold wwrap. rewrite H. reflexivity. Qed.
Lemma fill_conv : forall S A B C (h : B -> C) (E : hop S B) (put : A -> C -> outcome A) n a s,
  gfill n (v <-- E ;; hret (h v)) put a s = gfill n E (fun a v => put a (h v)) a s.
Proof.
  intros S A B C h E put. induction n as [|n IH]; intros a s; [reflexivity|]. cbn [gfill].
  transitivity ((v <-- E ;; a' <-- hout (put a (h v)) ;; gfill n (v <-- E ;; hret (h v)) put a') s).
  - unfold hbind. destruct (E s) as [[[b|e] s1]| |]; reflexivity.
  - apply bind_ext; [reflexivity|]. intros. apply bind_ext; [reflexivity|]. intros. apply IH.
Qed.
Lemma pair_conv : forall S A B C (E : hop S A) (F : hop S B) (h : A * B -> C) s,
  (ab <-- (a <-- E ;; b <-- F ;; hret (a, b)) ;; hret (h ab)) s = (a <-- E ;; b <-- F ;; hret (h (a, b))) s.
Proof.
  intros S A B C E F h s. unfold hbind. destruct (E s) as [[[a|e] s1]| |]; cbn [obind]; try reflexivity.
  destruct (F s1) as [[[b|e] s2]| |]; reflexivity.
Qed.
Lemma fills_stuck : forall A B (put : A -> B -> outcome A) p vs, (forall v, In v vs -> put p v = Ok p) -> fills put p vs = Ok p.
Proof.
  intros A B put p. induction vs as [|v vs IH]; intro H; [reflexivity|]. cbn [fills].
  rewrite (H v (or_introl eq_refl)). cbn [obind]. apply IH. intros. apply H. right. assumption.
Qed.
Lemma reads_list : forall x cf u ws, (forall w, In w ws -> exists v, reads x cf u w v) -> exists vs, readss x cf u ws vs.
Proof.
  intros x cf u. induction ws as [|w ws IH]; intro H; [exists []; constructor|].
  destruct (H w (or_introl eq_refl)) as (v & Hv). destruct IH as (vs & Hvs); [intros; apply H; right; assumption|].
  exists (v :: vs). constructor; assumption.
Qed.
Lemma reads_map : forall x cf k v ws,
  (forall a b, In (a, b) ws -> exists ka vb, reads x cf k a ka /\ reads x cf v b vb) -> exists vs, readsm x cf k v ws vs.
Proof.
  intros x cf k v. induction ws as [|[a b] ws IH]; intro H; [exists []; constructor|].
  destruct (H a b (or_introl eq_refl)) as (ka & vb & H1 & H2). destruct IH as (vs & Hvs); [intros; apply H; right; assumption|].
  exists ((ka, vb) :: vs). constructor; assumption.
Qed.
(** The types a base type or an enum can have on the wire. *)
Definition wire_scalar (t : Z) : Prop := In t [BOOL; BYTE; I16; I32; I64; DOUBLE; STRING].
Lemma scalar_wire : forall x cf u w v, reads x cf u w v -> is_scalar u = true -> wire_scalar (vtype w) /\ need w = 1%nat.
Proof.
  intros x cf u w v H Sc. destruct H; cbn in Sc; try discriminate;
    (split; [unfold wire_scalar; cbn; auto 10|reflexivity]).
Qed.
Lemma scalars_need : forall x cf t ws f, is_scalar (resolve t) = true ->
  (forall w, In w ws -> exists v, reads x cf (resolve t) w v) -> (lneed ws <= 1 + f)%nat.
Proof.
  intros x cf t ws f Sc H. unfold lneed. induction ws as [|w ws IH]; [cbn; lia|].
  destruct (H w (or_introl eq_refl)) as (v & Hv). destruct (scalar_wire _ _ _ _ _ Hv Sc) as [_ E].
  cbn [map max_list fold_right]. fold (max_list (map need ws)). rewrite E.
  specialize (IH (fun w Hw => H w (or_intror Hw))). lia.
Qed.
Lemma scalarsm_need : forall x cf k v ws f, is_scalar (resolve k) = true -> is_scalar (resolve v) = true ->
  (forall a b, In (a, b) ws -> exists ka vb, reads x cf (resolve k) a ka /\ reads x cf (resolve v) b vb) ->
  (mneed ws <= 1 + f)%nat.
Proof.
  intros x cf k v ws f Sk Sv H. unfold mneed. induction ws as [|[a b] ws IH]; [cbn; lia|].
  destruct (H a b (or_introl eq_refl)) as (ka & vb & H1 & H2).
  destruct (scalar_wire _ _ _ _ _ H1 Sk) as [_ E1]. destruct (scalar_wire _ _ _ _ _ H2 Sv) as [_ E2].
  cbn [map max_list fold_right fst snd]. rewrite E1, E2.
  specialize (IH (fun a b Hw => H a b (or_intror Hw))). unfold max_list in IH. lia.
Qed.
Lemma elem_type : forall x cf t et ws vs v, is_scalar (resolve t) = true ->
  readss x cf (resolve t) ws vs -> (forall w, In w ws -> vtype w = et) -> In v vs -> wire_scalar et.
Proof.
  intros x cf t et ws vs v Sc H. induction H as [|t0 w v0 ws vs Hw _ IH]; [intros _ []|]. intros E _.
  rewrite <- (E w (or_introl eq_refl)). eapply scalar_wire; eassumption.
Qed.
Lemma elemm_type : forall x cf k v kt vt ws vs ab, is_scalar (resolve k) = true -> is_scalar (resolve v) = true ->
  readsm x cf (resolve k) (resolve v) ws vs -> (forall a b, In (a, b) ws -> vtype a = kt /\ vtype b = vt) -> In ab vs ->
  wire_scalar kt /\ wire_scalar vt.
Proof.
  intros x cf k v kt vt ws vs ab Sk Sv H. induction H as [|k0 v0 wa wb a b ws vs Ha Hb _ IH]; [intros _ []|]. intros E _.
  destruct (E wa wb (or_introl eq_refl)) as [<- <-]. split; eapply scalar_wire; eassumption.
Qed.
(** None of them takes a value of a type of its own. *)
Lemma other_refused : forall x et k i, wire_scalar et -> exists u, CoerceData x et (AOther k i) = Ok (u, false).
Proof.
  intros x et k i H. unfold wire_scalar in H. cbn in H. 
  repeat destruct H as [<-|H]; [..|destruct H]; destruct k; eexists; reflexivity.
Qed.
Lemma known_empty : forall et, wire_scalar et -> IsEmptyType et = false /\ (et =? STOP) || (et =? VOID) = false.
Proof. intros et H. unfold wire_scalar in H. cbn in H. repeat destruct H as [<-|H]; [..|destruct H]; split; reflexivity. Qed.
Lemma own_conv : forall N a t v, naming_ok N -> is_scalar (resolve t) = true -> exists k i, elem_value N (DTypedef a t) v = AOther k i.
Proof. intros N a t v No Sc. cbn [elem_value resolve]. rewrite Sc. destruct (proj1 No a v) as (k & i & _ & E). eauto. Qed.
Lemma push_refused : forall N x a t et n v, naming_ok N -> is_scalar (resolve t) = true -> wire_scalar et ->
  tl_Push x (NewTList et n) (elem_value N (DTypedef a t) v) = Ok (NewTList et n).
Proof.
  intros N x a t et n v No Sc W. destruct (own_conv N a t v No Sc) as (k & i & ->).
  unfold tl_Push, tl_settype, NewTList. cbn [tl_et tl_l]. rewrite (proj1 (known_empty _ W)).
  destruct (other_refused x et k i W) as (u & ->). reflexivity.
Qed.
Lemma add_refused : forall N x cf a t et n v, naming_ok N -> is_scalar (resolve t) = true -> wire_scalar et ->
  ts_Add x cf (NewTSet et n) (elem_value N (DTypedef a t) v) = Ok (NewTSet et n).
Proof.
  intros N x cf a t et n v No Sc W. destruct (own_conv N a t v No Sc) as (k & i & ->).
  unfold ts_Add, NewTSet. cbn [ts_et ts_l]. destruct (other_refused x et k i W) as (u & ->). reflexivity.
Qed.
Lemma set_refused : forall N x cf k v kt vt n a b, naming_ok N -> own_type k || own_type v = true ->
  wire_scalar kt /\ wire_scalar vt ->
  tm_Set x cf (NewTMap kt vt n) (elem_value N k a) (elem_value N v b) = Ok (NewTMap kt vt n).
Proof.
  intros N x cf k v kt vt n a b No Ow [Wk Wv]. unfold tm_Set, NewTMap. cbn [tm_kt tm_vt tm_size tm_l tm_b].
  rewrite (proj2 (known_empty _ Wk)).
  assert (Kn : known_type kt).
  { unfold wire_scalar in Wk. unfold known_type. cbn in *. intuition auto 20. }
  destruct (coerce_no_panic x kt (elem_value N k a) Kn) as (ck & ok & Ec). rewrite Ec. cbn [obind].
  destruct ok; [|reflexivity]. cbn [negb]. rewrite (proj2 (known_empty _ Wv)).
  destruct (own_type k) eqn:Ok.
  - destruct k; try discriminate. cbn [own_type resolve] in Ok. destruct (own_conv N alias k a No Ok) as (q & i & E).
    destruct (other_refused x kt q i Wk) as (u & E2). rewrite E, E2 in Ec. discriminate.
  - cbn [orb] in Ow. destruct v; try discriminate. cbn [own_type resolve] in Ow.
    destruct (own_conv N alias v b No Ow) as (q & i & E). destruct (other_refused x vt q i Wv) as (u & E2).
    rewrite E, E2. reflexivity.
Qed.
Lemma coerced_known : forall x et d v, CoerceData x et d = Ok (v, true) -> forall k i, v <> AOther k i.
Proof.
  intros x et d v H k i ->. unfold CoerceData, coerce_nil, coerce_bool, coerce_byte, coerce_double, coerce_int, coerce_text in H.
  destruct d; cbn in H;
  repeat (match type of H with
          | context [if ?c then _ else _] => destruct c
          | context [match ?c with _ => _ end] => destruct c
          end; try discriminate H); discriminate H.
Qed.
Lemma pushed_known : forall x vs p q, Forall (fun u => forall k i, u <> AOther k i) (tl_l p) -> fills (tl_Push x) p vs = Ok q ->
  Forall (fun u => forall k i, u <> AOther k i) (tl_l q).
Proof.
  intros x. induction vs as [|v vs IH]; intros p q F H; [injection H as <-; exact F|].
  cbn [fills] in H. destruct (tl_Push x p v) as [p'| |] eqn:E; try discriminate. apply (IH p' q); [|exact H].
  unfold tl_Push in E. destruct (CoerceData x (tl_settype p v) v) as [[u ok]| |] eqn:Ec; try discriminate.
  injection E as <-. cbn [tl_l]. destruct ok; [|exact F]. apply Forall_app. split; [exact F|].
  constructor; [|constructor]. eapply coerced_known. exact Ec.
Qed.

(** ** C106 *)

(** Generated code for a type with typedefs in it reads, over any protocol, what the code for the
    same type without them reads: same result, same state of the stream.
    Missing: containers whose elements, keys or values are of a typedef of a base type or an enum;
    see the refutations. *)
Theorem C106_read_partial : forall S (R : rproto S) N x M cf f t s,
  known_elems t = true -> dread N R x M cf f t s = gread R x M cf f (resolve t) s.
Proof. intros. apply dread_all. assumption. Qed.
Print Assumptions C106_read_partial.

(** And it writes the same, over any protocol.
    Missing: the same containers, and required members of a typedef of an enum that were never
    set. *)
Theorem C106_write_partial : forall S (W : wproto S) N x f t v s,
  orders x -> known_elems t = true -> all_set t v ->
  dwrite N W x f t v s = gwrite W x f (resolve t) v s.
Proof. intros. apply dwrite_all; assumption. Qed.
Print Assumptions C106_write_partial.

(** Hence what C48 says of round trips holds of types with typedefs. *)
Theorem C106_round_trip_partial : forall strict N x M cf t v,
  orders x -> schema_ok (resolve t) -> kept x (resolve t) v -> known_elems t = true -> all_set t v ->
  exists bs n, forall f, (n <= f)%nat ->
    (forall o, dwrite N (binaryW strict) x f t v (MkWt o []) = Ok (None, MkWt (o ++ bs) [])) /\
    forall r rest, benign r -> content r = bs ++ rest ->
    exists v' r', dread N (binaryR strict) x M cf f t r = Ok (inl v', r') /\ same v v' /\
      benign r' /\ content r' = rest.
Proof.
  intros strict N x M cf t v Ho So K E A.
  destruct (C48_binary_round_trip_partial strict x M cf _ _ Ho So K) as (bs & n & H). exists bs, n.
  intros f Hf. destruct (H f Hf) as [H1 H2]. split.
  - intro o. rewrite C106_write_partial by assumption. apply H1.
  - intros r rest B C. rewrite C106_read_partial by assumption. apply H2; assumption.
Qed.
Print Assumptions C106_round_trip_partial.

(** A required member of a typedef of an enum that nobody set: the code for the enum itself writes
    nothing, the code for the typedef writes the field with the value 2147483647. *)
Theorem C106_unset_enum_refuted : forall strict N x f i n d a t tag en cs o,
  resolve t = TyEnum tag en cs ->
  let m := DMem i n false d (DTypedef a t) in
  let v := mk_enum tag en cs enum_unset in
  dwrite_field N (binaryW strict) x (4 + f) m v (MkWt o []) =
    Ok (None, MkWt (o ++ sb_field I32 i ++ sb_i32 2147483647) []) /\
  gwrite_field (binaryW strict) x (4 + f) (resolve_m m) v (MkWt o []) = Ok (None, MkWt o []).
Proof.
  intros strict N x f i n d a t tag en cs o E m v. split.
  - pose proof (scalar_true t) as Et. rewrite E in Et. specialize (Et eq_refl).
    unfold m, v. cbn [Nat.add dwrite_field]. unfold demits. cbn [dm_ty dm_opt resolve is_enum_here resolve_m]. rewrite E.
    cbn [can_be_nil negb orb andb m_name dm_id type_to_enum].
    cbn [dwrite get_true_type]. rewrite Et. unfold mk_enum. cbn [gwrite]. rewrite Z.eqb_refl.
    change (wraps 32 enum_unset) with 2147483647. cbn [wFieldBegin binaryW wFieldEnd wI32].
    rewrite app_assoc.
    erewrite run_seq; [|apply run_wrap, (bw (bWriteFieldBegin n I32 i)), benc_field].
    erewrite run_seq; [|apply run_wrap, run_wrap, (bw (bWriteI32 2147483647)), benc_i32]. reflexivity.
  - unfold m, v. cbn [Nat.add gwrite_field resolve_m resolve]. unfold gemits, gisset. cbn [m_ty m_opt]. rewrite E.
    unfold mk_enum. rewrite Z.eqb_refl. cbn [negb orb andb]. rewrite andb_false_r. reflexivity.
Qed.
Print Assumptions C106_unset_enum_refuted.

(** A list of a typedef of a base type or an enum: the elements are read and then refused by Push,
    so the list comes out empty, without an error. *)
Theorem C106_list_refuted : forall strict N x M cf f a t et ws r rest,
  naming_ok N -> is_scalar (resolve t) = true -> wf (VList et ws) ->
  (forall w, In w ws -> exists v, reads x cf (resolve t) w v) ->
  benign r -> content r = sb_val (VList et ws) ++ rest ->
  exists r', dread N (binaryR strict) x M cf (2 + f) (DList (DTypedef a t)) r = Ok (inl (AList 0 et []), r') /\
    benign r' /\ content r' = rest.
Proof.
  intros strict N x M cf f a t et ws r rest No Sc Wf El B C.
  destruct (brd_val strict _ Wf r rest B C) as (r' & Rd & B' & C'). exists r'. split; [|auto].
  inversion Rd; subst. destruct (reads_list _ _ _ _ El) as (vs & Rs).
  assert (Ne : (lneed ws <= 1 + f)%nat) by (eapply scalars_need; eassumption).
  change (('(t0, n) <-- hwrap (hlift (rListBegin (binaryR strict))) ;;
      l <-- gfill (Z.to_nat n) (v <-- dread N (binaryR strict) x M cf (1 + f) (DTypedef a t) ;; hret (elem_value N (DTypedef a t) v))
              (tl_Push x) (NewTList t0 n) ;;
      _ <-- hwrap (hdo (rListEnd (binaryR strict))) ;; hret (AList 0 (tl_et l) (tl_l l))) r =
      Ok (inl (AList 0 et []), r')).
  erewrite hl by eassumption. cbn beta iota. rewrite Nat2Z.id.
  erewrite hb; [|rewrite fill_conv, (fill_ext _ _ _ _ (gread (binaryR strict) x M cf (1 + f) (resolve t)));
    [|intro; apply (C106_read_partial _ _ _ _ _ _ _ (DTypedef a t)), (scalar_known (DTypedef a t)); exact Sc];
    eapply (proj1 (proj2 (rd_gread_all (binaryR strict) true x M cf))); try eassumption;
    [apply scalar_schema, Sc|discriminate|
     apply (fills_stuck _ _ _ (NewTList et (Z.of_nat (length ws))));
     intros v Hv; apply push_refused; [exact No|exact Sc|]; eapply elem_type; eassumption]].
  erewrite hde by eassumption. reflexivity.
Qed.
Print Assumptions C106_list_refuted.

(** A set: the same, and the set still says it has as many elements as were on the wire. *)
Theorem C106_set_refuted : forall strict N x M cf f a t et ws r rest,
  naming_ok N -> is_scalar (resolve t) = true -> wf (VSet et ws) ->
  (forall w, In w ws -> exists v, reads x cf (resolve t) w v) ->
  benign r -> content r = sb_val (VSet et ws) ++ rest ->
  exists v r', dread N (binaryR strict) x M cf (2 + f) (DSet (DTypedef a t)) r = Ok (inl v, r') /\
    benign r' /\ content r' = rest /\
    v = ASet 0 et (Z.of_nat (length ws)) [] /\ any_len v = Z.of_nat (length ws).
Proof.
  intros strict N x M cf f a t et ws r rest No Sc Wf El B C.
  destruct (brd_val strict _ Wf r rest B C) as (r' & Rd & B' & C').
  exists (ASet 0 et (Z.of_nat (length ws)) []), r'. split; [|auto].
  inversion Rd; subst. destruct (reads_list _ _ _ _ El) as (vs & Rs).
  assert (Ne : (lneed ws <= 1 + f)%nat) by (eapply scalars_need; eassumption).
  change (('(t0, n) <-- hwrap (hlift (rSetBegin (binaryR strict))) ;;
      l <-- gfill (Z.to_nat n) (v <-- dread N (binaryR strict) x M cf (1 + f) (DTypedef a t) ;; hret (elem_value N (DTypedef a t) v))
              (ts_Add x cf) (NewTSet t0 n) ;;
      _ <-- hwrap (hdo (rSetEnd (binaryR strict))) ;; hret (ASet 0 (ts_et l) (ts_size l) (ts_l l))) r =
      Ok (inl (ASet 0 et (Z.of_nat (length ws)) []), r')).
  erewrite hl by eassumption. cbn beta iota. rewrite Nat2Z.id.
  erewrite hb; [|rewrite fill_conv, (fill_ext _ _ _ _ (gread (binaryR strict) x M cf (1 + f) (resolve t)));
    [|intro; apply (C106_read_partial _ _ _ _ _ _ _ (DTypedef a t)), (scalar_known (DTypedef a t)); exact Sc];
    eapply (proj1 (proj2 (rd_gread_all (binaryR strict) true x M cf))); try eassumption;
    [apply scalar_schema, Sc|discriminate|
     apply (fills_stuck _ _ _ (NewTSet et (Z.of_nat (length ws))));
     intros v Hv; apply add_refused; [exact No|exact Sc|]; eapply elem_type; eassumption]].
  erewrite hde by eassumption. reflexivity.
Qed.
Print Assumptions C106_set_refuted.

(** Writing such a set again gives a header that announces elements which do not follow. *)
Theorem C106_set_again_refuted : forall strict N x f e et n o, 0 <= n ->
  dwrite N (binaryW strict) x (1 + f) (DSet e) (ASet 0 et n []) (MkWt o []) =
    Ok (None, MkWt (o ++ sb_list (ThriftTypeId (type_to_enum (resolve e))) n) []).
Proof.
  intros strict N x f e et n o Hn. cbn [Nat.add dwrite get_true_type map wseqs any_len wSetBegin wSetEnd binaryW].
  unfold set_Len. cbn [length Nat.eqb negb].
  erewrite run_seq; [|apply run_wrap, (bw (bWriteSetBegin (type_to_enum (resolve e)) n)), benc_set]. reflexivity.
Qed.
Print Assumptions C106_set_again_refuted.

(** A map with such keys or values: empty. *)
Theorem C106_map_refuted : forall strict N x M cf f k v kt vt ws r rest,
  naming_ok N -> is_scalar (resolve k) = true -> is_scalar (resolve v) = true -> own_type k || own_type v = true ->
  wf (VMap kt vt ws) ->
  (forall a b, In (a, b) ws -> exists ka vb, reads x cf (resolve k) a ka /\ reads x cf (resolve v) b vb) ->
  benign r -> content r = sb_val (VMap kt vt ws) ++ rest ->
  exists r', dread N (binaryR strict) x M cf (2 + f) (DMap k v) r =
      Ok (inl (AMap 0 kt vt (Z.of_nat (length ws)) [] []), r') /\
    benign r' /\ content r' = rest.
Proof.
  intros strict N x M cf f k v kt vt ws r rest No Sk Sv Ow Wf El B C.
  destruct (brd_val strict _ Wf r rest B C) as (r' & Rd & B' & C'). exists r'. split; [|auto].
  inversion Rd; subst. destruct (reads_map _ _ _ _ _ El) as (vs & Rs).
  assert (Ne : (mneed ws <= 1 + f)%nat) by exact (scalarsm_need _ _ _ _ _ f Sk Sv El).
  change (('(t0, u0, n) <-- hwrap (hlift (rMapBegin (binaryR strict))) ;;
      l <-- gfill (Z.to_nat n) (a <-- dread N (binaryR strict) x M cf (1 + f) k ;; b <-- dread N (binaryR strict) x M cf (1 + f) v ;;
              hret (elem_value N k a, elem_value N v b))
              (fun p kv => tm_Set x cf p (fst kv) (snd kv)) (NewTMap t0 u0 n) ;;
      _ <-- hwrap (hdo (rMapEnd (binaryR strict))) ;;
      hret (AMap 0 (tm_kt l) (tm_vt l) (tm_size l) (tm_l l) (tm_b l))) r =
      Ok (inl (AMap 0 kt vt (Z.of_nat (length ws)) [] []), r')).
  erewrite hl by eassumption. cbn beta iota. rewrite Nat2Z.id.
  assert (Fe : forall s0, (a <-- dread N (binaryR strict) x M cf (1 + f) k ;; b <-- dread N (binaryR strict) x M cf (1 + f) v ;;
      hret (elem_value N k a, elem_value N v b)) s0 =
    (ab <-- (a <-- gread (binaryR strict) x M cf (1 + f) (resolve k) ;;
      b <-- gread (binaryR strict) x M cf (1 + f) (resolve v) ;; hret (a, b)) ;;
      hret (elem_value N k (fst ab), elem_value N v (snd ab))) s0).
  { intro s0. rewrite pair_conv. apply bind_ext; [apply C106_read_partial, scalar_known; exact Sk|]. intros a0 s3.
    apply bind_ext; [apply C106_read_partial, scalar_known; exact Sv|]. reflexivity. }
  assert (G : fills (fun p ab => tm_Set x cf p (elem_value N k (fst ab)) (elem_value N v (snd ab)))
                (NewTMap kt vt (Z.of_nat (length ws))) vs = Ok (NewTMap kt vt (Z.of_nat (length ws)))).
  { apply fills_stuck. intros ab Hab. apply set_refused; [exact No|exact Ow|]. eapply (elemm_type _ _ k v); eassumption. }
  erewrite hb; [|rewrite (fill_ext _ _ _ _ _ _ Fe), (fill_conv _ _ _ _ (fun ab => (elem_value N k (fst ab), elem_value N v (snd ab))));
    eapply (proj1 (proj2 (proj2 (rd_gread_all (binaryR strict) true x M cf))));
    [exact Rs|apply scalar_schema, Sk|apply scalar_schema, Sv|discriminate|discriminate|eassumption|exact Ne|exact G]].
  erewrite hde by eassumption. reflexivity.
Qed.
Print Assumptions C106_map_refuted.

(** The other way: whatever is pushed to a list, an element of a typedef's own type is never among
    what the list keeps, so a list that is not empty panics when it is written. *)
Theorem C106_pushed_refuted : forall S (W : wproto S) N x f a t et n vs p s s1,
  naming_ok N -> is_scalar (resolve t) = true ->
  pushes x (NewTList et n) vs = Ok p -> tl_l p <> [] ->
  wListBegin W (type_to_enum (resolve t)) (Z.of_nat (length (tl_l p))) s = Ok (None, s1) ->
  dwrite N W x (1 + f) (DList (DTypedef a t)) (AList 0 (tl_et p) (tl_l p)) s = Panic.
Proof.
  intros S W N x f a t et n vs p s s1 No Sc P Ne H.
  assert (G : Forall (fun u => forall k i, u <> AOther k i) (tl_l p)) by (eapply pushed_known; [|exact P]; constructor).
  destruct (tl_l p) as [|u l] eqn:El; [congruence|]. inversion G as [|? ? Hu Hl]; subst.
  cbn [Nat.add dwrite get_true_type resolve any_len]. erewrite run_seq; [|apply run_wrap; exact H].
  cbn [map wseqs]. unfold elem_assert. cbn [resolve]. rewrite Sc.
  destruct (nm_assert N a u) as [w|] eqn:Ea; [|reflexivity].
  destruct (proj2 No _ _ _ Ea) as (k & i & E). destruct (Hu _ _ E).
Qed.
Print Assumptions C106_pushed_refuted.

(** The schema of C48_case with typedefs: of base types, of the enum, of containers, and of a
    container inside a container. *)
Definition d_outer : dty := DStruct [79]
  [ DMem 4 (nm 103) false None (DTypedef [84; 67] (DTypedef [67; 67] (DTy ty_color)))
  ; DMem 1 (nm 97) false None (DTypedef [84; 66] (DTy TyBool))
  ; DMem 2 (nm 98) true None (DTypedef [84; 83] (DTy TyString))
  ; DMem 3 (nm 99) false None (DTypedef [84; 76] (DList (DTy ty_inner)))
  ; DMem 5 (nm 101) true None (DTypedef [84; 69] (DSet (DTy TyI64)))
  ; DMem 6 (nm 102) false None (DMap (DTy TyString) (DTypedef [84; 68] (DList (DTy TyDouble))))
  ; DMem 9 (nm 105) true None (DTy ty_inner) ].
Definition N0 : naming := MkNaming (fun _ _ => AOther OValue 7) (fun _ u => match u with AOther OValue 7 => Some (AInt32 7) | _ => None end).
Lemma N0_ok : naming_ok N0.
Proof.
  split; [intros a v; exists OValue, 7; split; [discriminate|reflexivity]|].
  intros a v w H. destruct v; try discriminate. eauto.
Qed.
Example C106_case :
  orders ext0 /\ resolve d_outer = ty_outer /\ schema_ok (resolve d_outer) /\ kept ext0 (resolve d_outer) v_outer /\
  known_elems d_outer = true /\ all_set d_outer v_outer /\
  dwrite N0 (binaryW true) ext0 20 d_outer v_outer (MkWt [] []) = Ok (None, MkWt b_outer []).
Proof.
  split; [exact ext0_orders|]. split; [reflexivity|]. split; [exact outer_ok|]. split; [apply outer_kept|].
  split; [reflexivity|]. split; [|vm_compute; reflexivity].
  cbn. unfold unset_alias. cbn.
  repeat apply conj; try exact I; try (repeat (constructor; cbn); fail).
  all: try (intros (_ & _ & (? & ? & ? & H) & _); discriminate H).
  all: try (intros (_ & _ & _ & ? & ? & H); discriminate H).
  all: repeat (constructor; cbn; try exact I).
Qed.
(** The list 5, 6 as a list of a typedef of i32: read empty; pushed and written: a panic, after
    the header. *)
Example C106_list_case :
  naming_ok N0 /\ wf (VList I32 [VI32 5; VI32 6]) /\ benign [(sb_val (VList I32 [VI32 5; VI32 6]) ++ [99], None)] /\
  (forall w, In w [VI32 5; VI32 6] -> exists v, reads ext0 5 TyI32 w v) /\
  dread N0 (binaryR true) ext0 64 5 2 (DList (DTypedef [85] (DTy TyI32))) [(sb_val (VList I32 [VI32 5; VI32 6]) ++ [99], None)] =
    Ok (inl (AList 0 I32 []), [([99], None)]) /\
  gread (binaryR true) ext0 64 5 2 (TyList TyI32) [(sb_val (VList I32 [VI32 5; VI32 6]) ++ [99], None)] =
    Ok (inl (AList 0 I32 [AInt32 5; AInt32 6]), [([99], None)]) /\
  pushes ext0 (NewTList I32 2) [AInt32 5; AOther OValue 7; AInt32 6] = Ok (MkTl I32 [AInt32 5; AInt32 6]) /\
  wListBegin (binaryW true) I32 2 (MkWt [] []) = Ok (None, MkWt [8; 0; 0; 0; 2] []) /\
  dwrite N0 (binaryW true) ext0 9 (DList (DTypedef [85] (DTy TyI32))) (AList 0 I32 [AInt32 5; AInt32 6]) (MkWt [] []) = Panic.
Proof.
  split; [exact N0_ok|]. split; [concrete|]. split; [concrete|].
  split; [intros w [<-|[<-|[]]]; eexists; constructor|]. repeat apply conj; vm_compute; reflexivity.
Qed.
(** Sets and maps alike. *)
Example C106_set_case :
  wf (VSet STRING [VStr [97]; VStr [98]]) /\ wf (VMap STRING BYTE [(VStr [97], VByte 3)]) /\
  own_type (DTy TyString) || own_type (DTypedef [85] (DTy TyByte)) = true /\
  dread N0 (binaryR true) ext0 64 5 2 (DSet (DTypedef [85] (DTy TyString))) [(sb_val (VSet STRING [VStr [97]; VStr [98]]), None)] =
    Ok (inl (ASet 0 STRING 2 []), []) /\
  dwrite N0 (binaryW true) ext0 2 (DSet (DTypedef [85] (DTy TyString))) (ASet 0 STRING 2 []) (MkWt [] []) =
    Ok (None, MkWt [11; 0; 0; 0; 2] []) /\
  dread N0 (binaryR true) ext0 64 5 2 (DMap (DTy TyString) (DTypedef [85] (DTy TyByte)))
    [(sb_val (VMap STRING BYTE [(VStr [97], VByte 3)]), None)] = Ok (inl (AMap 0 STRING BYTE 1 [] []), []).
Proof. split; [concrete|]. split; [concrete|]. split; [reflexivity|]. repeat apply conj; vm_compute; reflexivity. Qed.
