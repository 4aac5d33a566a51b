(** What it is for a protocol to deliver and to take a value. *)
From Coq Require Import ZArith List Bool Lia.
From Verif Require Import Base Errors Transport Proto Arith Values.
Import ListNotations.
Open Scope Z_scope.

(** ** A reader positioned on a value, a writer that takes it *)

Section Access.
Context {S : Type}.

(** Calls of [R] from state [s] on deliver exactly the value [v] and end in [s']; field and
    struct names are not on the wire.  [bin] tells whether binaries are read like strings. *)
Inductive rd (bin : bool) (R : rproto S) : tval -> S -> S -> Prop :=
| rd_bool b s s' : rBool R s = Ok (b, None, s') -> rd bin R (VBool b) s s'
| rd_byte z s s' : rByte R s = Ok (z, None, s') -> rd bin R (VByte z) s s'
| rd_i16 z s s' : rI16 R s = Ok (z, None, s') -> rd bin R (VI16 z) s s'
| rd_i32 z s s' : rI32 R s = Ok (z, None, s') -> rd bin R (VI32 z) s s'
| rd_i64 z s s' : rI64 R s = Ok (z, None, s') -> rd bin R (VI64 z) s s'
| rd_double z s s' : rDouble R s = Ok (z, None, s') -> rd bin R (VDouble z) s s'
| rd_str b s s' : rString R s = Ok (b, None, s') -> (bin = true -> rBinary R s = Ok (b, None, s')) ->
    rd bin R (VStr b) s s'
| rd_list et l s s1 s2 s' :
    rListBegin R s = Ok ((et, Z.of_nat (length l)), None, s1) ->
    (forall v, In v l -> vtype v = et) ->
    rds bin R l s1 s2 -> rListEnd R s2 = Ok (None, s') -> rd bin R (VList et l) s s'
| rd_set et l s s1 s2 s' :
    rSetBegin R s = Ok ((et, Z.of_nat (length l)), None, s1) ->
    (forall v, In v l -> vtype v = et) ->
    rds bin R l s1 s2 -> rSetEnd R s2 = Ok (None, s') -> rd bin R (VSet et l) s s'
| rd_map kt vt l s s1 s2 s' :
    rMapBegin R s = Ok ((kt, vt, Z.of_nat (length l)), None, s1) ->
    (forall k v, In (k, v) l -> vtype k = kt /\ vtype v = vt) ->
    rdm bin R l s1 s2 -> rMapEnd R s2 = Ok (None, s') -> rd bin R (VMap kt vt l) s s'
| rd_struct nm fs s s1 s2 s' :
    rStructBegin R s = Ok (nm, None, s1) ->
    rdf bin R fs s1 s2 -> rStructEnd R s2 = Ok (None, s') -> rd bin R (VStruct fs) s s'
with rds (bin : bool) (R : rproto S) : list tval -> S -> S -> Prop :=
| rds_nil s : rds bin R [] s s
| rds_cons v l s s1 s' : rd bin R v s s1 -> rds bin R l s1 s' -> rds bin R (v :: l) s s'
with rdm (bin : bool) (R : rproto S) : list (tval * tval) -> S -> S -> Prop :=
| rdm_nil s : rdm bin R [] s s
| rdm_cons k v l s s1 s2 s' : rd bin R k s s1 -> rd bin R v s1 s2 -> rdm bin R l s2 s' ->
    rdm bin R ((k, v) :: l) s s'
with rdf (bin : bool) (R : rproto S) : list (Z * tval) -> S -> S -> Prop :=
| rdf_nil id s s' : rFieldBegin R s = Ok (([], STOP, id), None, s') -> rdf bin R [] s s'
| rdf_cons id v fs s s1 s2 s3 s' :
    rFieldBegin R s = Ok (([], vtype v, id), None, s1) ->
    rd bin R v s1 s2 -> rFieldEnd R s2 = Ok (None, s3) -> rdf bin R fs s3 s' ->
    rdf bin R ((id, v) :: fs) s s'.

(** The writing calls that describe [v] all succeed, from [s] to [s']; names given with
    structs and fields do not matter.  [bin] tells whether binaries are written like strings and
    type BINARY may stand for STRING in headers. *)
Definition same_type (bin : bool) (t w : Z) : Prop :=
  t = w \/ bin = true /\ w = STRING /\ t = BINARY.
Inductive wr (bin : bool) (W : wproto S) : tval -> S -> S -> Prop :=
| wr_bool b s s' : wBool W b s = Ok (None, s') -> wr bin W (VBool b) s s'
| wr_byte z s s' : wByte W z s = Ok (None, s') -> wr bin W (VByte z) s s'
| wr_i16 z s s' : wI16 W z s = Ok (None, s') -> wr bin W (VI16 z) s s'
| wr_i32 z s s' : wI32 W z s = Ok (None, s') -> wr bin W (VI32 z) s s'
| wr_i64 z s s' : wI64 W z s = Ok (None, s') -> wr bin W (VI64 z) s s'
| wr_double z s s' : wDouble W z s = Ok (None, s') -> wr bin W (VDouble z) s s'
| wr_str b s s' : wString W b s = Ok (None, s') -> (bin = true -> wBinary W b s = Ok (None, s')) ->
    wr bin W (VStr b) s s'
| wr_list et l s s1 s2 s' :
    (forall t, same_type bin t et -> wListBegin W t (Z.of_nat (length l)) s = Ok (None, s1)) ->
    wrs bin W l s1 s2 -> wListEnd W s2 = Ok (None, s') -> wr bin W (VList et l) s s'
| wr_set et l s s1 s2 s' :
    (forall t, same_type bin t et -> wSetBegin W t (Z.of_nat (length l)) s = Ok (None, s1)) ->
    wrs bin W l s1 s2 -> wSetEnd W s2 = Ok (None, s') -> wr bin W (VSet et l) s s'
| wr_map kt vt l s s1 s2 s' :
    (forall t u, same_type bin t kt -> same_type bin u vt ->
       wMapBegin W t u (Z.of_nat (length l)) s = Ok (None, s1)) ->
    wrm bin W l s1 s2 -> wMapEnd W s2 = Ok (None, s') -> wr bin W (VMap kt vt l) s s'
| wr_struct fs s s1 s2 s3 s' :
    (forall nm, wStructBegin W nm s = Ok (None, s1)) ->
    wrf bin W fs s1 s2 -> wFieldStop W s2 = Ok (None, s3) -> wStructEnd W s3 = Ok (None, s') ->
    wr bin W (VStruct fs) s s'
with wrs (bin : bool) (W : wproto S) : list tval -> S -> S -> Prop :=
| wrs_nil s : wrs bin W [] s s
| wrs_cons v l s s1 s' : wr bin W v s s1 -> wrs bin W l s1 s' -> wrs bin W (v :: l) s s'
with wrm (bin : bool) (W : wproto S) : list (tval * tval) -> S -> S -> Prop :=
| wrm_nil s : wrm bin W [] s s
| wrm_cons k v l s s1 s2 s' : wr bin W k s s1 -> wr bin W v s1 s2 -> wrm bin W l s2 s' ->
    wrm bin W ((k, v) :: l) s s'
with wrf (bin : bool) (W : wproto S) : list (Z * tval) -> S -> S -> Prop :=
| wrf_nil s : wrf bin W [] s s
| wrf_cons id v fs s s1 s2 s3 s' :
    (forall nm t, same_type bin t (vtype v) -> wFieldBegin W nm t id s = Ok (None, s1)) ->
    wr bin W v s1 s2 -> wFieldEnd W s2 = Ok (None, s3) -> wrf bin W fs s3 s' ->
    wrf bin W ((id, v) :: fs) s s'.
End Access.

Scheme rd_m := Minimality for rd Sort Prop
  with rds_m := Minimality for rds Sort Prop
  with rdm_m := Minimality for rdm Sort Prop
  with rdf_m := Minimality for rdf Sort Prop.
Combined Scheme rd_mut from rd_m, rds_m, rdm_m, rdf_m.

(** ** Against the generic readers and writers of Values.v *)

Section Generic.
Context {S : Type}.

(** A protocol that delivers [v] lets the generic reader read it. *)
Lemma rd_read_all : forall bin (R : rproto S),
  (forall v s s', rd bin R v s s' -> forall f, (need v <= f)%nat -> read_val R f (vtype v) s = Ok (inl v, s')) /\
  (forall l s s', rds bin R l s s' -> forall f t, (max_list (map need l) <= f)%nat -> (forall v, In v l -> vtype v = t) ->
     hrepeat (length l) (read_val R f t) s = Ok (inl l, s')) /\
  (forall l s s', rdm bin R l s s' -> forall f kt vt,
     (max_list (map (fun kv => Nat.max (need (fst kv)) (need (snd kv))) l) <= f)%nat ->
     (forall k v, In (k, v) l -> vtype k = kt /\ vtype v = vt) ->
     hrepeat (length l) (k <-- read_val R f kt ;; v <-- read_val R f vt ;; hret (k, v)) s = Ok (inl l, s')) /\
  (forall fs s s', rdf bin R fs s s' -> forall f,
     (fold_right (fun f n => Datatypes.S (Nat.max (need (snd f)) n)) 1%nat fs <= f)%nat ->
     read_fields R f s = Ok (inl fs, s')).
Proof.
  intros bin R.
  assert (L1 : forall A B (m : rop S A) (k : A -> hop S B) s a s1, m s = Ok (a, None, s1) -> hbind (hlift m) k s = k a s1).
  { intros A B m k s a s1 H. unfold hbind, hlift. now rewrite H. }
  assert (L2 : forall B (m : wop S) (k : unit -> hop S B) s s1, m s = Ok (None, s1) -> hbind (hdo m) k s = k tt s1).
  { intros B m k s s1 H. unfold hbind, hdo. now rewrite H. }
  assert (L3 : forall A B (m : hop S A) (k : A -> hop S B) s a s1, m s = Ok (inl a, s1) -> hbind m k s = k a s1).
  { intros A B m k s a s1 H. unfold hbind. now rewrite H. }
  apply rd_mut.
  1-7: intros; match goal with |- read_val _ ?f _ _ = _ => destruct f as [|f]; [cbn in *; lia|] end;
    cbn [read_val vtype];
    match goal with H : _ = Ok (_, None, _) |- _ => exact (L1 _ _ _ _ _ _ _ H) end.
  - intros et l s s1 s2 s' H1 T H2 IH H3 f Hf. destruct f as [|f]; [cbn in Hf; lia|]. cbn [need] in Hf.
    cbn [read_val vtype]. etransitivity; [exact (L1 _ _ _ _ _ _ _ H1)|]. cbv beta iota. rewrite Nat2Z.id.
    rewrite (L3 _ _ _ _ _ _ _ (IH f et ltac:(lia) T)). exact (L2 _ _ _ _ _ H3).
  - intros et l s s1 s2 s' H1 T H2 IH H3 f Hf. destruct f as [|f]; [cbn in Hf; lia|]. cbn [need] in Hf.
    cbn [read_val vtype]. etransitivity; [exact (L1 _ _ _ _ _ _ _ H1)|]. cbv beta iota. rewrite Nat2Z.id.
    rewrite (L3 _ _ _ _ _ _ _ (IH f et ltac:(lia) T)). exact (L2 _ _ _ _ _ H3).
  - intros kt vt l s s1 s2 s' H1 T H2 IH H3 f Hf. destruct f as [|f]; [cbn in Hf; lia|]. cbn [need] in Hf.
    cbn [read_val vtype]. etransitivity; [exact (L1 _ _ _ _ _ _ _ H1)|]. cbv beta iota. rewrite Nat2Z.id.
    rewrite (L3 _ _ _ _ _ _ _ (IH f kt vt ltac:(lia) T)). exact (L2 _ _ _ _ _ H3).
  - intros nm fs s s1 s2 s' H1 H2 IH H3 f Hf. destruct f as [|f]; [cbn in Hf; lia|]. cbn [need] in Hf.
    cbn [read_val vtype]. etransitivity; [exact (L1 _ _ _ _ _ _ _ H1)|]. cbv beta iota. fold (@read_fields S).
    etransitivity; [exact (L3 _ _ _ _ _ _ _ (IH f ltac:(lia)))|]. exact (L2 _ _ _ _ _ H3).
  - reflexivity.
  - intros v l s s1 s' H1 IH1 H2 IH2 f t Hf T. cbn [map max_list fold_right] in Hf. cbn [length hrepeat].
    rewrite <- (T v (or_introl eq_refl)) at 1. unfold max_list in *. rewrite (L3 _ _ _ _ _ _ _ (IH1 f ltac:(lia))).
    rewrite (L3 _ _ _ _ _ _ _ (IH2 f t ltac:(lia) (fun u Hu => T u (or_intror Hu)))). reflexivity.
  - reflexivity.
  - intros k v l s s1 s2 s' H1 IH1 H2 IH2 H3 IH3 f kt vt Hf T. cbn [map max_list fold_right fst snd] in Hf. cbn [length hrepeat].
    destruct (T k v (or_introl eq_refl)) as [<- <-]. unfold max_list in *.
    assert (E : (a <-- read_val R f (vtype k) ;; b <-- read_val R f (vtype v) ;; hret (a, b)) s = Ok (inl (k, v), s2)).
    { rewrite (L3 _ _ _ _ _ _ _ (IH1 f ltac:(lia))). now rewrite (L3 _ _ _ _ _ _ _ (IH2 f ltac:(lia))). }
    rewrite (L3 _ _ _ _ _ _ _ E).
    rewrite (L3 _ _ _ _ _ _ _ (IH3 f _ _ ltac:(lia) (fun a b Hu => T a b (or_intror Hu)))). reflexivity.
  - intros id s s' H f Hf. destruct f as [|f]; [cbn in Hf; lia|]. rewrite read_fields_S. now rewrite (L1 _ _ _ _ _ _ _ H).
  - intros id v fs s s1 s2 s3 s' H1 H2 IH2 H3 H4 IH4 f Hf. destruct f as [|f]; [cbn in Hf; lia|].
    cbn [fold_right snd] in Hf. rewrite read_fields_S, (L1 _ _ _ _ _ _ _ H1).
    replace (vtype v =? STOP) with false by (destruct v; reflexivity).
    rewrite (L3 _ _ _ _ _ _ _ (IH2 f ltac:(lia))), (L2 _ _ _ _ _ H3).
    now rewrite (L3 _ _ _ _ _ _ _ (IH4 f ltac:(lia))).
Qed.
Lemma rd_read_val : forall bin (R : rproto S) v s s' f, rd bin R v s s' -> (need v <= f)%nat ->
  read_val R f (vtype v) s = Ok (inl v, s').
Proof. intros bin R v s s' f H L. now apply (proj1 (rd_read_all bin R)). Qed.

(** A protocol that ignores names takes what the generic writer writes. *)
Lemma wseq_ok : forall (a b : wop S) s s', (a >>> b) s = Ok (None, s') ->
  exists s1, a s = Ok (None, s1) /\ b s1 = Ok (None, s').
Proof.
  intros a b s s' H. unfold wseq in H. destruct (a s) as [[[e|] s1]| |]; cbn [obind] in H; try discriminate.
  exists s1. auto.
Qed.
Lemma write_val_wr : forall (W : wproto S),
  (forall n m s, wStructBegin W n s = wStructBegin W m s) ->
  (forall n m t id s, wFieldBegin W n t id s = wFieldBegin W m t id s) ->
  forall v s s', write_val W v s = Ok (None, s') -> wr false W v s s'.
Proof.
  intros W HS HF. assert (T : forall t w, same_type false t w -> t = w) by (intros t w [E|[E _]]; congruence).
  assert (LS : forall l, Forall (fun v => forall s s', write_val W v s = Ok (None, s') -> wr false W v s s') l ->
            forall s s', wseqs (map (write_val W) l) s = Ok (None, s') -> wrs false W l s s').
  { intros l F. induction F as [|v l Hv F IH]; intros s s' E; cbn [map wseqs] in E.
    - injection E as <-. constructor.
    - destruct (wseq_ok _ _ _ _ E) as (s1 & E1 & E2). econstructor; eauto. }
  induction v using tval_ind'; intros q q' E; cbn [write_val] in E.
  1-7: now constructor.
  - destruct (wseq_ok _ _ _ _ E) as (s1 & E1 & E'). destruct (wseq_ok _ _ _ _ E') as (s2 & E2 & E3).
    eapply wr_list; [|apply LS; eassumption|exact E3]. intros t Ht. now rewrite (T _ _ Ht).
  - destruct (wseq_ok _ _ _ _ E) as (s1 & E1 & E'). destruct (wseq_ok _ _ _ _ E') as (s2 & E2 & E3).
    eapply wr_set; [|apply LS; eassumption|exact E3]. intros t Ht. now rewrite (T _ _ Ht).
  - destruct (wseq_ok _ _ _ _ E) as (s1 & E1 & E'). destruct (wseq_ok _ _ _ _ E') as (s2 & E2 & E3).
    eapply wr_map; [| |exact E3]; [intros t u Ht Hu; rewrite (T _ _ Ht), (T _ _ Hu); exact E1|].
    clear - H E2. revert s1 E2. induction H as [|[a b] l [Ha Hb] F IH]; intros s E; cbn [map wseqs fst snd] in *.
    + injection E as <-. constructor.
    + destruct (wseq_ok _ _ _ _ E) as (s1 & E1 & E4). destruct (wseq_ok _ _ _ _ E1) as (s3 & E5 & E6). econstructor; eauto.
  - destruct (wseq_ok _ _ _ _ E) as (s1 & E1 & E'). destruct (wseq_ok _ _ _ _ E') as (s2 & E2 & E3).
    destruct (wseq_ok _ _ _ _ E3) as (s3 & E4 & E5).
    eapply wr_struct; [intros nm; rewrite (HS nm []); exact E1| |exact E4|exact E5].
    clear - H E2 HF T. revert s1 E2. induction H as [|[id v] l Hv F IH]; intros s E; cbn [map wseqs fst snd] in *.
    + injection E as <-. constructor.
    + destruct (wseq_ok _ _ _ _ E) as (s1 & E1 & E4). destruct (wseq_ok _ _ _ _ E1) as (s3 & E5 & E6).
      destruct (wseq_ok _ _ _ _ E6) as (s4 & E7 & E8).
      econstructor; [|apply Hv; exact E7|exact E8|apply IH; exact E4].
      intros nm t Ht. rewrite (T _ _ Ht), (HF nm []). exact E5.
Qed.
End Generic.
