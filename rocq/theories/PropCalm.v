(** C119: which services no input can make panic. *)
From Coq Require Import ZArith List Bool Lia.
From Coq Require Import ZifyBool ZifyNat.
From Verif Require Import Base Errors Transport Proto Skip Arith TransportProofs Values BinaryProofs BinarySpec Binary BinaryMsg Compact
  Buffer Framed Over Het OverSim OverInst.
From Verif Require Import TField GoVal Compare TList TSet TMap Gen GenSpec GenProofs GenInst PropGen AppExc AppExcProofs Rpc RpcProofs
  PropRpc PropService Serve ServeProofs PropServe PropWork Tutorial PropTutorial WfDec.
Import ListNotations.
Open Scope Z_scope.
Local Notation length := List.length.

(** ** Without panic *)

Definition calm {A} (o : outcome A) : Prop := o <> Panic.
Lemma calm_bind : forall A B (o : outcome A) (k : A -> outcome B),
  calm o -> (forall a, o = Ok a -> calm (k a)) -> calm (obind o k).
Proof. intros A B [a| |] k H K; cbn; [apply K; reflexivity|contradiction H; reflexivity|discriminate]. Qed.
Lemma calm_ok : forall A (a : A), calm (Ok a).
Proof. discriminate. Qed.
Lemma calm_fuel : forall A, calm (@OutOfFuel A).
Proof. discriminate. Qed.

(** A protocol none of whose reading methods panics, but for ReadBinary. *)
Record calmR {S} (R : rproto S) : Prop := MkCalm {
  k_msg : forall s, calm (rMessageBegin R s); k_msgend : forall s, calm (rMessageEnd R s);
  k_struct : forall s, calm (rStructBegin R s); k_structend : forall s, calm (rStructEnd R s);
  k_field : forall s, calm (rFieldBegin R s); k_fieldend : forall s, calm (rFieldEnd R s);
  k_map : forall s, calm (rMapBegin R s); k_mapend : forall s, calm (rMapEnd R s);
  k_list : forall s, calm (rListBegin R s); k_listend : forall s, calm (rListEnd R s);
  k_set : forall s, calm (rSetBegin R s); k_setend : forall s, calm (rSetEnd R s);
  k_bool : forall s, calm (rBool R s); k_byte : forall s, calm (rByte R s);
  k_i16 : forall s, calm (rI16 R s); k_i32 : forall s, calm (rI32 R s); k_i64 : forall s, calm (rI64 R s);
  k_double : forall s, calm (rDouble R s); k_string : forall s, calm (rString R s) }.

Ltac kbind := apply calm_bind; [|intros ? _].
Ltac kq := repeat first
  [ apply calm_ok | apply calm_fuel | assumption
  | progress (cbv beta iota zeta)
  | match goal with
    | |- calm (obind _ _) => kbind
    | |- calm (let '(_, _) := ?p in _) => destruct p
    | |- calm (match ?p with _ => _ end) => destruct p
    end ].

Lemma calm_binary : forall T (ra : nat -> T -> Z * bytes * option err * T) strict, calmR (o_binaryR ra strict).
Proof.
  intros T ra strict.
  assert (A : forall n s, calm (o_b_readAll ra n s)) by (intros n s; unfold o_b_readAll; kq).
  assert (B : forall s, calm (o_bReadByte ra s)) by (intro s; unfold o_bReadByte; kbind; [apply A|kq]).
  assert (I2 : forall s, calm (o_bReadI16 ra s)) by (intro s; unfold o_bReadI16; kbind; [apply A|kq]).
  assert (I4 : forall s, calm (o_bReadI32 ra s)) by (intro s; unfold o_bReadI32; kbind; [apply A|kq]).
  assert (I8 : forall s, calm (o_bReadI64 ra s)) by (intro s; unfold o_bReadI64; kbind; [apply A|kq]).
  assert (SB : forall n s, calm (o_bReadStringBody ra n s)) by (intros n s; unfold o_bReadStringBody; kq).
  assert (ST : forall s, calm (o_bReadString ra s)).
  { intro s. unfold o_bReadString. kbind; [apply I4|]. destruct a as [[n [e|]] s1]; [apply calm_ok|apply SB]. }
  constructor; intro s; cbn [o_binaryR rMessageBegin rMessageEnd rStructBegin
    rStructEnd rFieldBegin rFieldEnd rMapBegin rMapEnd rListBegin rListEnd rSetBegin rSetEnd
    rBool rByte rI16 rI32 rI64 rDouble rString]; try apply calm_ok; auto.
  - unfold o_bReadMessageBegin. kbind; [apply I4|]. kq; auto.
  - unfold o_bReadFieldBegin. kbind; [apply B|]. kq; auto.
  - unfold o_bReadMapBegin. kbind; [apply B|]. kq; auto.
  - unfold o_bReadListBegin. kbind; [apply B|]. kq; auto.
  - unfold o_bReadSetBegin. kbind; [apply B|]. kq; auto.
  - unfold o_bReadBool. kbind; [apply B|]. kq; auto.
  - unfold o_bReadDouble. kbind; [apply A|]. kq; auto.
Qed.
Lemma calm_plain : forall strict, calmR (binaryR strict).
Proof. intro strict. exact (calm_binary rt read_all strict). Qed.

Section Calm.
Context {S : Type}.
Variable R : rproto S.
Hypothesis K : calmR R.
Variable M : Z.

Lemma calm_repeat : forall (body : wop S), (forall s, calm (body s)) -> forall n s, calm (repeat_ignoring n body s).
Proof.
  intros body B. induction n as [|n IH]; intro s; cbn [repeat_ignoring]; [apply calm_ok|].
  kbind; [apply B|]. destruct a. apply IH.
Qed.
Lemma calm_skip : forall f, (forall t d s, calm (skip R M f t d s)) /\ (forall d s, calm (skip_fields R M f d s)).
Proof.
  destruct K. induction f as [|f [IH IHf]]; [split; intros; apply calm_fuel|]. split; intros.
  - cbn [skip].
    repeat match goal with |- calm (if ?c then _ else _) => destruct c end; try apply calm_ok.
    all: kbind; [auto|].
    all: try (destruct a as [[v e] s1]; apply calm_ok).
    + destruct a as [[v [e|]] s1]; [apply calm_ok|]. kbind; [apply IHf|auto].
    + destruct a as [[[[k v] n] [e|]] s1]; [apply calm_ok|]. kbind; [|auto].
      apply calm_repeat. intro s2. kbind; [apply IH|]. destruct a. apply IH.
    + destruct a as [[[t0 n] [e|]] s1]; [apply calm_ok|]. kbind; [|auto]. apply calm_repeat. intro. apply IH.
    + destruct a as [[[t0 n] [e|]] s1]; [apply calm_ok|]. kbind; [|auto]. apply calm_repeat. intro. apply IH.
  - cbn [skip_fields]. kbind; [auto|]. destruct a as [[[[nm t] i] e] s1].
    destruct (t =? STOP); [apply calm_ok|]. kbind; [apply IH|]. destruct a. kbind; [auto|]. destruct a. apply IHf.
Qed.

(** Types without containers and without binary, down to the members of structs. *)
Inductive plain : ty -> Prop :=
| pl_bool : plain TyBool | pl_byte : plain TyByte | pl_i16 : plain TyI16 | pl_i32 : plain TyI32
| pl_i64 : plain TyI64 | pl_double : plain TyDouble | pl_string : plain TyString
| pl_enum tag n cs : plain (TyEnum tag n cs)
| pl_struct n ms : (forall m, In m ms -> plain (m_ty m)) -> plain (TyStruct n ms).

Variable x : ext.
Variable cf : nat.
Lemma calm_h : forall A B (m : hop S A) (k : A -> hop S B) s,
  (forall s, calm (m s)) -> (forall a s, calm (k a s)) -> calm (hbind m k s).
Proof.
  intros A B m k s Hm Hk. unfold hbind. kbind; [apply Hm|]. destruct a as [[a|e] s1]; [apply Hk|apply calm_ok].
Qed.
Lemma calm_wrap : forall A (m : hop S A) s, (forall s, calm (m s)) -> calm (hwrap m s).
Proof. intros A m s H. unfold hwrap. kbind; [apply H|]. kq. Qed.
Lemma calm_lift : forall A (m : rop S A) s, (forall s, calm (m s)) -> calm (hlift m s).
Proof. intros A m s H. unfold hlift. kbind; [apply H|]. kq. Qed.
Lemma calm_do : forall (m : wop S) s, (forall s, calm (m s)) -> calm (hdo m s).
Proof. intros m s H. unfold hdo. kbind; [apply H|]. kq. Qed.
Lemma calm_ret : forall A (a : A) s, calm (@hret S A a s).
Proof. discriminate. Qed.
Ltac kh := repeat first [ apply calm_ret | apply calm_h; intros | apply calm_wrap; intros | apply calm_lift; intros
  | apply calm_do; intros | apply (proj1 (calm_skip _)) | solve [auto] ].

Lemma calm_gread : forall f,
  (forall t, plain t -> forall s, calm (gread R x M cf f t s)) /\
  (forall ms, (forall m, In m ms -> plain (m_ty m)) -> forall a s, calm (gread_fields R x M cf f ms a s)).
Proof.
  pose proof calm_skip as KS. destruct K. induction f as [|f [IH IHf]]; [split; intros; apply calm_fuel|]. split.
  - intros t P. inversion P; subst; intro s; cbn [gread]; kh.
  - intros ms P a s. cbn [gread_fields]. apply calm_h; [intro; kh|]. intros [[nm t0] i] s1. cbv zeta.
    match goal with |- calm ((if ?c then _ else _) _) => destruct c end; [apply calm_ret|].
    apply calm_h; [|intros; apply calm_h; [intro; kh|intros; apply IHf, P]].
    intro s2. destruct (find _ _) as [m|] eqn:Ef; [|kh].
    apply find_some in Ef. destruct Ef as [Hm _].
    match goal with |- calm ((if ?c then _ else _) _) => destruct c end; kh.
Qed.
End Calm.

(** ** Inputs that make a reader panic *)

Lemma two : forall n, in_s 16 n -> exists a b, be 2 n = [a; b] /\ wraps 16 (be_uint16 [a; b]) = n.
Proof.
  intros n H. pose proof (be_length 2 n) as L.
  destruct (be 2 n) as [|a [|b [|]]] eqn:E; try discriminate L.
  exists a, b. split; [reflexivity|]. rewrite <- E, be_uint16_be. apply (wraps_unbe_be 2); [lia|exact H].
Qed.

(** Some bytes make the reader of the type panic, whatever the bounds on the model's recursion are. *)
Definition breaks (t : ty) : Prop := exists c b n, forall strict x M cf f,
  gread (binaryR strict) x M cf (n + f) t [(c :: b, None)] = Panic.

(** Zeros are read as a value of any type. *)
Definition zeros (n : nat) : rt := [(repeat 0 n, None)].
Lemma zeros_read : forall t, exists v n, (n <= 8)%nat /\ forall strict x M cf f k,
  gread (binaryR strict) x M cf (2 + f) t (zeros (9 + k)) = Ok (inl v, zeros (9 - n + k)).
Proof.
  intros t. destruct t;
    [exists (ABool false), 1%nat|exists (AByte 0), 1%nat|exists (AInt16 0), 2%nat|exists (AInt32 0), 4%nat
    |exists (AInt64 0), 8%nat|exists (AF64 0), 8%nat|exists (AStr []), 4%nat|exists (ABytes []), 4%nat
    |exists (mk_enum tag name cs 0), 4%nat|exists (AList 0 0 []), 5%nat|exists (ASet 0 0 0 []), 5%nat
    |exists (AMap 0 0 0 0 [] []), 6%nat
    |exists (AStruct 0 name (fc_of ms) (map (fun m => (m_id m, m_init m)) ms)), 1%nat];
    (split; [lia|]); intros; reflexivity.
Qed.
Lemma no_coercion : forall x d, CoerceData x 99 d = Panic.
Proof. intros x []; reflexivity. Qed.

Lemma panic_h : forall S A B (m : hop S A) (k : A -> hop S B) s, m s = Panic -> hbind m k s = Panic.
Proof. intros S A B m k s H. unfold hbind. rewrite H. reflexivity. Qed.

Lemma panic_w : forall S A (m : hop S A) s, m s = Panic -> hwrap m s = Panic.
Proof. intros S A m s H. unfold hwrap. rewrite H. reflexivity. Qed.

Lemma breaks_list : forall t, breaks (TyList t).
Proof.
  intro t. destruct (zeros_read t) as (v & n & _ & Z). exists 99, ([0; 0; 0; 1] ++ repeat 0 9), 3%nat. intros.
  specialize (Z strict x M cf f O). change (3 + f)%nat with (S (2 + f)). cbn [gread].
  rewrite (hwb _ _ _ _ _ (99, 1) (zeros 9)) by reflexivity. cbv beta iota.
  apply panic_h. change (Z.to_nat 1) with 1%nat. cbn [gfill].
  rewrite (hb _ _ _ _ _ _ _ Z). apply panic_h. unfold hout, tl_Push, NewTList, tl_settype. cbn [tl_et].
  change ((99 =? STOP) || (99 =? VOID)) with false. cbv iota zeta. rewrite no_coercion. reflexivity.
Qed.
Lemma breaks_set : forall t, breaks (TySet t).
Proof.
  intro t. destruct (zeros_read t) as (v & n & _ & Z). exists 99, ([0; 0; 0; 1] ++ repeat 0 9), 3%nat. intros.
  specialize (Z strict x M cf f O). change (3 + f)%nat with (S (2 + f)). cbn [gread].
  rewrite (hwb _ _ _ _ _ (99, 1) (zeros 9)) by reflexivity. cbv beta iota.
  apply panic_h. change (Z.to_nat 1) with 1%nat. cbn [gfill].
  rewrite (hb _ _ _ _ _ _ _ Z). apply panic_h. unfold hout, ts_Add, NewTSet. cbn [ts_et].
  rewrite no_coercion. reflexivity.
Qed.
Lemma breaks_map : forall k v, breaks (TyMap k v).
Proof.
  intros k v. destruct (zeros_read k) as (a & n & Ln & Z). destruct (zeros_read v) as (b & m & Lm & Z').
  exists 99, ([99; 0; 0; 0; 1] ++ repeat 0 (9 + n)), 3%nat. intros.
  specialize (Z strict x M cf f n). specialize (Z' strict x M cf f O).
  replace (9 - n + n)%nat with 9%nat in Z by lia. change (3 + f)%nat with (S (2 + f)). cbn [gread].
  rewrite (hwb _ _ _ _ _ (99, 99, 1) (zeros (9 + n))) by reflexivity. cbv beta iota.
  apply panic_h. change (Z.to_nat 1) with 1%nat. cbn [gfill].
  erewrite hb; [|rewrite (hb _ _ _ _ _ _ _ Z), (hb _ _ _ _ _ _ _ Z'); reflexivity].
  apply panic_h. unfold hout, tm_Set, NewTMap. cbn [fst snd tm_kt].
  change ((99 =? STOP) || (99 =? VOID)) with false. cbv iota zeta. rewrite no_coercion. reflexivity.
Qed.
Lemma breaks_binary : breaks TyBinary.
Proof. exists 255, [255; 255; 255], 1%nat. reflexivity. Qed.
Lemma breaks_struct : forall name ms m, members_ok ms -> In m ms -> breaks (m_ty m) -> breaks (TyStruct name ms).
Proof.
  intros name ms m Mok Hm (c & b & n & Br). pose proof Mok as (_ & _ & Mo). destruct (Mo m Hm) as [_ Hid].
  destruct (two (m_id m)) as (b1 & b0 & _ & E); [unfold in_s; change (2 ^ (16 - 1)) with (2 ^ 15); lia|].
  exists LIST, (b1 :: b0 :: c :: b), (S (S n)). intros. specialize (Br strict x M cf f).
  change (S (S n) + f)%nat with (S (S (n + f))).
  change (gread (binaryR strict) x M cf (S (S (n + f))) (TyStruct name ms)) with
    (hbind (hwrap (hlift (rStructBegin (binaryR strict)))) (fun _ : bytes =>
     hbind (gread_fields (binaryR strict) x M cf (S (n + f)) ms (map (fun m => (m_id m, m_init m)) ms)) (fun attrs =>
     hbind (hwrap (hdo (rStructEnd (binaryR strict)))) (fun _ => hret (AStruct 0 name (fc_of ms) attrs))))).
  match goal with |- hbind (hwrap ?m) ?k ?s = _ => rewrite (hwb _ _ m k s ([] : bytes) s eq_refl) end.
  apply panic_h. cbn [gread_fields].
  assert (F : hlift (rFieldBegin (binaryR strict)) [(LIST :: b1 :: b0 :: c :: b, None)] =
    Ok (inl ([], LIST, wraps 16 (be_uint16 [b1; b0])), [(c :: b, None)])) by reflexivity.
  rewrite E in F. rewrite (hwb _ _ _ _ _ _ _ F). cbv zeta iota beta.
  replace (m_id m <? 0) with false by lia. change (LIST =? GENERIC) with false. change (LIST =? STOP) with false.
  cbv iota. apply panic_h. rewrite (dispatch_known ms m Mok Hm). change (LIST =? VOID) with false.
  rewrite andb_false_r. apply panic_h, panic_w. exact Br.
Qed.

Lemma plain_or_breaks : forall t, schema_ok t -> plain t \/ breaks t.
Proof.
  intros t H. induction H as [| | | | | | | | | | | |name ms Mok _ IH]; try (left; constructor; fail).
  - right. apply breaks_binary.
  - right. apply breaks_list.
  - right. apply breaks_set.
  - right. apply breaks_map.
  - assert (D : (forall m, In m ms -> plain (m_ty m)) \/ exists m, In m ms /\ breaks (m_ty m)).
    { clear Mok. induction ms as [|m ms IHm]; [left; intros m []|].
      destruct (IH m (or_introl eq_refl)) as [P|B]; [|right; exists m; split; [left; reflexivity|exact B]].
      destruct IHm as [P'|(m' & Hm & B)]; [intros m' Hm; apply IH; right; exact Hm| |].
      - left. intros m' [<-|Hm]; auto.
      - right. exists m'. split; [right; exact Hm|exact B]. }
    destruct D as [P|(m & Hm & B)]; [left; constructor; exact P|]. right. eapply breaks_struct; eassumption.
Qed.

(** ** C119 *)

(** The reader generated for a type, over TBinaryProtocol, panics on no input (any bytes, in any pieces, with any
    errors) exactly if the type has no container and no binary in it. *)
Theorem C119_read : forall t, schema_ok t ->
  ((forall strict x M cf f (r : rt), gread (binaryR strict) x M cf f t r <> Panic) <-> plain t).
Proof.
  intros t So. split.
  - intro H. destruct (plain_or_breaks t So) as [P|(c & b & n & B)]; [exact P|].
    destruct (H true ext0 0 O (n + 0)%nat [(c :: b, None)] (B true ext0 0 O O)).
  - intros P strict x M cf f r. apply (proj1 (calm_gread _ (calm_plain strict) M x cf f) t P).
Qed.
Print Assumptions C119_read.

Lemma calm_process : forall SR H (R : rproto SR) strictW x M cf fuel errtext
    (handle : H -> bytes -> list any -> (list (Z * any) * option bytes) * H) fs h si o,
  calmR R -> (forall f, In f fs -> func_ok f) -> (forall f m, In f fs -> In m (fn_args f) -> plain (m_ty m)) ->
  results_ok x fuel handle true true fs ->
  calm (process R (binaryW strictW) nop x M cf fuel errtext handle fs h si (MkWt o [])).
Proof.
  intros SR H R strictW x M cf fuel errtext handle fs h si o K Fok Pl Rok.
  assert (Ex : forall name seq e, calm (write_exception (binaryW strictW) nop name seq e (MkWt o []))).
  { intros name seq e. destruct (write_exception_ok (binaryW strictW) nop bow bow sb_val (bmsg strictW) []
      (fun _ _ => True) (fun _ => True) (bow_exc strictW) (bow_msg strictW) bow_end bow_nop
      name seq e (MkWt o []) o I I eq_refl) as (so' & E4 & _). rewrite E4. discriminate. }
  pose proof (k_msg _ K) as Km. pose proof (k_msgend _ K) as Ke.
  unfold process. kbind; [apply Km|]. destruct a as [[[[name t] seq] [e|]] s1]; [apply calm_ok|].
  destruct (lookup_fn fs name) as [f|] eqn:L.
  - apply lookup_in in L. destruct L as [Hf <-]. unfold process_fn.
    kbind; [apply (proj1 (calm_gread R K M x cf fuel)); constructor; intros m Hm; eapply Pl; eassumption|].
    destruct a as [[args|e] s2].
    + kbind; [apply Ke|]. destruct a as [e2 s3].
      match goal with |- context [handle h (fn_name f) ?v] => set (vals := v) end.
      destruct (handle h (fn_name f) vals) as [[attrs [text|]] h'] eqn:Eh.
      * kbind; [apply Ex|apply calm_ok].
      * pose proof (Rok f h vals attrs h' Hf Eh) as Rk.
        destruct (bow_msg strictW (fn_name f) REPLY seq (MkWt o []) o ltac:(auto) I eq_refl) as (o1 & E1 & H1). rewrite E1. cbn [obind].
        assert (Hr : exists o2, gwrite_result (binaryW strictW) x fuel (result_name f) (result_members f)
                  (if fn_oneway f then init_attrs (result_members f) else attrs) o1 = Ok (None, o2)).
        { destruct (fn_oneway f) eqn:One.
          - destruct (empty_result_ok (binaryW strictW) nop (fun s => s) x M fuel handle true true bow bow (fun _ : rt => fun _ => True) (fun _ _ => True) sb_val
              (bmsg strictW) [] (fun _ _ => True) (fun _ => True) func_ok (fun _ => True)
              (bow_val strictW) (bow_exc strictW) (bow_msg strictW) bow_end bow_nop f (result_name f)
              (init_attrs (result_members f)) o1 _ (Fok f Hf) One Rk H1) as (o2 & G & G'). eauto.
          - destruct Rk as (Nb & rf & Hr & Nf).
            destruct (write_result_ok (binaryW strictW) nop (fun s => s) x M fuel handle true true bow bow (fun _ : rt => fun _ => True) (fun _ _ => True) sb_val
              (bmsg strictW) [] (fun _ _ => True) (fun _ => True) func_ok (fun _ => True)
              (bow_val strictW) (bow_exc strictW) (bow_msg strictW) bow_end bow_nop f attrs rf (result_name f) o1 _
              (Fok f Hf) Hr Nb Nf H1) as (o2 & G & G'). eauto. }
        destruct Hr as (o2 & E2). rewrite E2. cbn [obind].
        change (wMessageEnd (binaryW strictW) o2) with (@Ok (option err * wt) (None, o2)). cbn. discriminate.
    + kbind; [apply Ke|]. destruct a as [e2 s3]. kbind; [apply Ex|apply calm_ok].
  - kbind; [apply (proj1 (calm_skip R K M fuel))|]. destruct a as [e2 s2].
    kbind; [apply Ke|]. destruct a as [e3 s3]. kbind; [apply Ex|apply calm_ok].
Qed.

(** Process of a service none of whose functions takes a container or a binary, over TBinaryProtocol, panics on no
    input: any bytes, in any pieces, with any errors.  The results of the handler can be written, as in C44; the method
    asked for need not be one of the service and the arguments need not be those of the method. *)
Theorem C119_process : forall H strict strictW x M cf fuel errtext
    (handle : H -> bytes -> list any -> (list (Z * any) * option bytes) * H) fs h (r : rt) o,
  (forall f, In f fs -> func_ok f) -> (forall f m, In f fs -> In m (fn_args f) -> plain (m_ty m)) ->
  (forall f h vals attrs h', In f fs -> handle h (fn_name f) vals = ((attrs, None), h') ->
     if fn_oneway f then (2 <= fuel)%nat
     else exists rf, reply x f attrs rf /\ (need (VStruct rf) <= fuel)%nat) ->
  process (binaryR strict) (binaryW strictW) nop x M cf fuel errtext handle fs h r (MkWt o []) <> Panic.
Proof.
  intros H strict strictW x M cf fuel errtext handle fs h r o Fok Pl Rok.
  apply calm_process; [apply calm_plain|assumption|assumption|].
  intros f h0 vals attrs h1 Hf Eh. specialize (Rok f h0 vals attrs h1 Hf Eh).
  destruct (fn_oneway f); [exact Rok|]. split; [|exact Rok]. intros m Hm D. discriminate.
Qed.
Print Assumptions C119_process.

Lemma read_one : forall a c b, read_all (length a) [(a ++ c :: b, None)] = (Z.of_nat (length a), a, None, [(c :: b, None)]).
Proof.
  intros a c b. unfold read_all. destruct a as [|a0 a]; [reflexivity|]. cbn [length read_all_loop app].
  replace (S (length a) <? S (length (a ++ c :: b)))%nat with true
    by (symmetry; apply Nat.ltb_lt; rewrite app_length; cbn [length]; lia).
  change (a0 :: a ++ c :: b) with ((a0 :: a) ++ c :: b). change (S (length a)) with (length (a0 :: a)).
  rewrite firstn_app, Nat.sub_diag, firstn_all, skipn_app, Nat.sub_diag, skipn_all, app_nil_r. cbn [skipn app].
  rewrite pad_exact by reflexivity. reflexivity.
Qed.

Lemma header_read : forall name, Z.of_nat (length name) < 2 ^ 31 -> exists pre, forall strict c b,
  bReadMessageBegin strict [(pre ++ c :: b, None)] = Ok ((name, CALL, 0), None, [(c :: b, None)]).
Proof.
  intros name Hn. destruct (four (Z.of_nat (length name))) as (b3 & b2 & b1 & b0 & _ & E); [unfold in_s; cbn; lia|].
  exists ([128; 1; 0; 1] ++ [b3; b2; b1; b0] ++ name ++ [0; 0; 0; 0]). intros strict c b.
  assert (A : bReadI32 [(([128; 1; 0; 1] ++ [b3; b2; b1; b0] ++ name ++ [0; 0; 0; 0]) ++ c :: b, None)] =
    Ok (-2147418111, None, [([b3; b2; b1; b0] ++ name ++ [0; 0; 0; 0] ++ c :: b, None)])).
  { rewrite <- !app_assoc. reflexivity. }
  unfold bReadMessageBegin. rewrite A. cbn [obind]. change (-2147418111 <? 0) with true. cbv iota zeta.
  change (negb (Z.land (-2147418111) VERSION_MASK =? VERSION_1)) with false. cbv iota.
  assert (B : bReadString [([b3; b2; b1; b0] ++ name ++ [0; 0; 0; 0] ++ c :: b, None)] =
    Ok (name, None, [([0; 0; 0; 0] ++ c :: b, None)])).
  { assert (B0 : bReadI32 [([b3; b2; b1; b0] ++ name ++ [0; 0; 0; 0] ++ c :: b, None)] =
      Ok (wraps 32 (be_uint32 [b3; b2; b1; b0]), None, [(name ++ 0 :: [0; 0; 0] ++ c :: b, None)])).
    { destruct name; reflexivity. }
    unfold bReadString. rewrite B0, E. cbn [obind]. unfold bReadStringBody.
    replace (Z.of_nat (length name) <? 0) with false by lia. rewrite Nat2Z.id, read_one. reflexivity. }
  rewrite B. reflexivity.
Qed.

(** For any other service there is an input on which it panics, whatever its handler does and whoever reads the
    answers: a call of a function with such an argument. *)
Theorem C119_process_panics : forall fs f m, lookup_fn fs (fn_name f) = Some f -> members_ok (fn_args f) ->
  In m (fn_args f) -> schema_ok (m_ty m) -> ~ plain (m_ty m) -> Z.of_nat (length (fn_name f)) < 2 ^ 31 ->
  exists b n, forall SW H (W : wproto SW) flush strict x M cf k errtext
    (handle : H -> bytes -> list any -> (list (Z * any) * option bytes) * H) h so,
    process (binaryR strict) W flush x M cf (n + k) errtext handle fs h [(b, None)] so = Panic.
Proof.
  intros fs f m L Mok Hm So Np Hn.
  destruct (plain_or_breaks _ So) as [P|B]; [destruct (Np P)|].
  destruct (breaks_struct (args_name f) (fn_args f) m Mok Hm B) as (c & b & n & Br).
  destruct (header_read _ Hn) as (pre & Hp). exists (pre ++ c :: b), n. intros.
  unfold process. change (rMessageBegin (binaryR strict)) with (bReadMessageBegin strict).
  rewrite Hp. cbn [obind]. rewrite L. unfold process_fn. rewrite Br. reflexivity.
Qed.
Print Assumptions C119_process_panics.

(** ** Servers *)

(** A connection to a server of such a service, over TBinaryProtocol on plain transports or in frames, never ends in a
    panic: any bytes, in any pieces, with any errors; for any number of rounds and any time of Stop. *)
Theorem C119_server : forall H intw sv ir iw sr sw x M cf fuel errtext
    (handle : H -> bytes -> list any -> (list (Z * any) * option bytes) * H) fs stopped rounds h r,
  sv_in_p sv = PFBinary ir iw -> sv_out_p sv = PFBinary sr sw ->
  (forall f, In f fs -> func_ok f) -> (forall f m, In f fs -> In m (fn_args f) -> plain (m_ty m)) ->
  (forall f h vals attrs h', In f fs -> handle h (fn_name f) vals = ((attrs, None), h') ->
     if fn_oneway f then (2 <= fuel)%nat
     else exists rf, reply x f attrs rf /\ (need (VStruct rf) <= fuel)%nat) ->
  processRequest x M cf fuel errtext handle fs stopped intw sv rounds h r <> Panic.
Proof.
  intros H intw [it ot ip op] ir iw sr sw x M cf fuel errtext handle fs stopped rounds h r Ei Eo Fok Pl Rok.
  cbn in Ei, Eo. subst ip op. unfold processRequest. cbn [sv_in_t sv_out_t sv_in_p sv_out_p].
  assert (K : calmR (rd_proto (GetReader intw it (PFBinary ir iw)))).
  { destruct it; [apply calm_plain|apply calm_binary]. }
  set (R := GetReader intw it (PFBinary ir iw)) in *. set (W := GetWriter ot (PFBinary sr sw)) in *.
  assert (R1 : results_ok x fuel handle true true fs).
  { intros f h0 vals attrs h1 Hf Eh. specialize (Rok f h0 vals attrs h1 Hf Eh).
    destruct (fn_oneway f); [exact Rok|]. split; [|exact Rok]. intros m Hm D. discriminate. }
  assert (L : forall rounds n h si so o, server_out ot (PFBinary sr sw) so o ->
    calm (serve_loop x M cf fuel errtext handle fs stopped (rd_proto R) (wr_proto W) (wr_flush W) rounds n h si so)).
  { clear rounds h. induction rounds as [|rounds IH]; intros n h si so o Ho; [apply calm_fuel|].
    destruct (writer_round ot (PFBinary sr sw) so o Ho) as (simo & simf & so2 & o2 & WW & FF & So & Ho2 & Ne & Back).
    pose proof (hprocess false eq simo simf (rd_proto R) (rd_proto R) _ _ _ _ (rrel_refl _ _) WW FF x M cf fuel errtext handle
      fs h si si so so2 eq_refl So) as Q. fold W in Q.
    pose proof (process_once (rd_proto R) (binaryW sw) nop (fun s => s) x M cf fuel errtext handle true true
      bow bow (fun _ _ => True) (fun _ _ => True) sb_val (bmsg sw) [] (fun _ _ => True) (fun _ => True) func_ok (fun _ => True)
      (bow_val sw) (bow_exc sw) (bow_msg sw) bow_end bow_nop fs h si so2 o2) as O.
    assert (C2 : calm (process (rd_proto R) (wr_proto (GetWriter TFPlain (PFBinary sr sw))) (wr_flush (GetWriter TFPlain (PFBinary sr sw)))
      x M cf fuel errtext handle fs h si so2)).
    { change so2 with (so2 : wt). rewrite (Ho2 : so2 = MkWt o2 []). apply calm_process; assumption. }
    cbn [serve_loop]. apply calm_bind.
    - intro P. rewrite P in Q. destruct (process (rd_proto R) (wr_proto (GetWriter TFPlain _)) _ x M cf fuel errtext handle fs h si so2);
        [discriminate Q|apply C2; reflexivity|discriminate Q].
    - intros p P. destruct (ends (stopped n) p) eqn:En; [apply calm_ok|].
      rewrite P in Q.
      destruct (process (rd_proto R) (wr_proto (GetWriter TFPlain (PFBinary sr sw))) (wr_flush (GetWriter TFPlain (PFBinary sr sw)))
          x M cf fuel errtext handle fs h si so2) as [p2| |] eqn:P2; cbn in Q; try contradiction.
      destruct Q as (Qs & Qe & Qh & _ & Qo). specialize (O p2 Fok R1 ltac:(repeat split) Ho2 P2).
      destruct (rMessageBegin (rd_proto R) si) as [[[[[name t] seq] [e|]] s1]| |] eqn:Hd; try contradiction.
      + destruct O as (O1 & O2 & _). exfalso. revert En. unfold ends. rewrite Qe, Qs, O1, O2. cbn. destruct (stopped n); discriminate.
      + destruct (O I) as (mt & body & A & B). rewrite app_nil_r in B.
        pose proof (answered_kind _ _ _ _ _ _ _ _ _ _ _ A) as ->.
        change (plain_out (PFBinary sr sw) (p_out p2) (o2 ++ told (PFBinary sr sw)
          (MkAnswer name (if p_success p2 then REPLY else EXCEPTION) seq body))) in B.
        destruct Qo as [[_ Qo]|Qo]; [destruct (Ne _ (eq_ind _ (fun s => plain_out (PFBinary sr sw) s _) B _ Qo))|].
        eapply IH. apply (Back _ _ _ Qo B). }
  apply calm_bind; [eapply L, server_out_new|]. intros [[h' si'] so'] _. apply calm_ok.
Qed.
Print Assumptions C119_server.

(** A server of any other service, over TBinaryProtocol on plain input, panics on the first call below. *)
Theorem C119_server_panics : forall fs f m, lookup_fn fs (fn_name f) = Some f -> members_ok (fn_args f) ->
  In m (fn_args f) -> schema_ok (m_ty m) -> ~ plain (m_ty m) -> Z.of_nat (length (fn_name f)) < 2 ^ 31 ->
  exists b n, forall H intw sv ir iw x M cf k errtext
    (handle : H -> bytes -> list any -> (list (Z * any) * option bytes) * H) stopped rounds h,
    sv_in_t sv = TFPlain -> sv_in_p sv = PFBinary ir iw ->
    processRequest x M cf (n + k) errtext handle fs stopped intw sv (S rounds) h [(b, None)] = Panic.
Proof.
  intros fs f m L Mok Hm So Np Hn. destruct (C119_process_panics fs f m L Mok Hm So Np Hn) as (b & n & Pn).
  exists b, n. intros H intw [it ot ip op] ir iw x M cf k errtext handle stopped rounds h Et Ei. cbn in Et, Ei. subst it ip.
  unfold processRequest. cbn [sv_in_t sv_out_t sv_in_p sv_out_p GetReader rd_proto rd_new serve_loop].
  rewrite Pn. reflexivity.
Qed.
Print Assumptions C119_server_panics.

(** Over TCompactProtocol no service is safe, not even one without functions: the name of a message may have a
    negative length. *)
Theorem C119_compact_refuted : exists b : bytes,
  (forall SW H (W : wproto SW) flush x M cf fuel errtext
     (handle : H -> bytes -> list any -> (list (Z * any) * option bytes) * H) fs h c so,
     process compactR W flush x M cf fuel errtext handle fs h ([(b, None)], c) so = Panic) /\
  (forall H intw sv x M cf fuel errtext
     (handle : H -> bytes -> list any -> (list (Z * any) * option bytes) * H) fs stopped rounds h,
     sv_in_t sv = TFPlain -> sv_in_p sv = PFCompact ->
     processRequest x M cf fuel errtext handle fs stopped intw sv (S rounds) h [(b, None)] = Panic).
Proof.
  assert (A : forall SW H (W : wproto SW) flush x M cf fuel errtext
     (handle : H -> bytes -> list any -> (list (Z * any) * option bytes) * H) fs h c so,
     process compactR W flush x M cf fuel errtext handle fs h ([([130; 33; 0; 255; 255; 255; 255; 15], None)], c) so = Panic).
  { intros. reflexivity. }
  exists [130; 33; 0; 255; 255; 255; 255; 15]. split; [intros; apply A|].
  intros H intw [it ot ip op] x M cf fuel errtext handle fs stopped rounds h Et Ei. cbn in Et, Ei. subst it ip.
  unfold processRequest. cbn [sv_in_t sv_out_t sv_in_p sv_out_p GetReader rd_proto rd_new serve_loop].
  rewrite A. reflexivity.
Qed.
Print Assumptions C119_compact_refuted.

(** ** The tutorial *)

Lemma calculator_plain : forall f m, In f calculator -> In m (fn_args f) -> plain (m_ty m).
Proof.
  intros f m Hf Hm. repeat (destruct Hf as [<-|Hf]; [cbn in Hm; repeat (destruct Hm as [<-|Hm]; [cbn; constructor|]); try destruct Hm|]);
    try destruct Hf.
  intros m Hm. repeat (destruct Hm as [<-|Hm]; [cbn; constructor|]). destruct Hm.
Qed.
Lemma safe_replies : forall x fuel f p vals attrs p', orders x -> (8 <= fuel)%nat -> In f calculator ->
  safe_handle p (fn_name f) vals = ((attrs, None), p') ->
  if fn_oneway f then (2 <= fuel)%nat else exists rf, reply x f attrs rf /\ (need (VStruct rf) <= fuel)%nat.
Proof.
  intros x fuel f p vals attrs p' Ox Hfu Hf E. destruct (fn_oneway f); [lia|].
  destruct (safe_results x f p vals attrs p' Hf E) as [Kp Nr].
  destruct (result_round (binaryW true) nop x 0 O fuel safe_handle true true false bow bow (fun _ : rt => fun _ => True) (fun _ _ => True)
    (bmsg true) [] (fun _ _ => True) func_ok (fun _ => True) (bow_msg true) bow_end bow_nop (fun f H => H) (fun _ _ _ _ => I) Ox
    f attrs (calculator_ok f Hf)) as (rf & Rp & _).
  - split; [intros m _ D; discriminate|]. split; [exact Kp|]. intros rf Rp. destruct (Nr rf Rp). lia.
  - exists rf. split; [exact Rp|]. destruct (Nr rf Rp). lia.
Qed.
(** The server of tutorial/go/src, over TBinaryProtocol on plain transports or in frames: nothing received on a
    connection makes reading the request, dispatching it or writing the answer panic.  (A panic in the handler, C102_nil_refuted,
    is taken for an error it returns.) *)
Theorem C119_tutorial : forall intw it ot ir iw sr sw x M cf fuel errtext stopped rounds p (r : rt),
  orders x -> (8 <= fuel)%nat ->
  processRequest x M cf fuel errtext safe_handle calculator stopped intw (MkTServer it ot (PFBinary ir iw) (PFBinary sr sw)) rounds p r <> Panic.
Proof.
  intros. eapply C119_server; [reflexivity|reflexivity|apply calculator_ok|apply calculator_plain|].
  intros f h vals attrs h' Hf E. eapply safe_replies; eassumption.
Qed.
Print Assumptions C119_tutorial.

(** Hypotheses of [C119_read], [C119_process_panics] and the theorems on servers; [ex_add] takes a list. *)
Example C119_case :
  plain (TyStruct work_name work_ms) /\ ~ plain (TyStruct [113] [Mem 3 [97] false None (TyList TyI32)]) /\
  (forall f, In f calculator -> func_ok f) /\
  orders ext0 /\
  lookup_fn ex_fs (fn_name ex_add) = Some ex_add /\ members_ok (fn_args ex_add) /\
  (exists m, In m (fn_args ex_add) /\ schema_ok (m_ty m) /\ ~ plain (m_ty m)) /\
  (* a list of one element of type 99, for a member of type list<i32> *)
  gread (binaryR true) ext0 64 5 40 (TyStruct [113] [Mem 3 [97] false None (TyList TyI32)])
    [([15; 0; 3; 99; 0; 0; 0; 1; 0; 0; 0; 7; 0], None)] = Panic /\
  (* the same bytes for a struct without lists *)
  (exists v s, gread (binaryR true) ext0 64 5 40 (TyStruct work_name work_ms)
    [([15; 0; 9; 99; 0; 0; 0; 1; 0; 0; 0; 7; 0], None)] = Ok (v, s)).
Proof.
  split; [constructor; intros m Hm; repeat (destruct Hm as [<-|Hm]; [cbn; constructor|]); destruct Hm|].
  split; [intro P; inversion P as [| | | | | | | |? ? Q]; subst; specialize (Q _ (or_introl eq_refl)); inversion Q|].
  split; [exact calculator_ok|]. split; [exact ext0_orders|]. split; [reflexivity|].
  assert (Fk : schema_ok (TyStruct (args_name ex_add) (fn_args ex_add))) by (apply (ex_ok ex_add); left; reflexivity).
  inversion Fk as [| | | | | | | | | | | |? ? Mok So]; subst.
  split; [exact Mok|]. split.
  { eexists. split; [right; left; reflexivity|]. split; [apply So; right; left; reflexivity|]. cbn. intro P. inversion P. }
  split; [vm_compute; reflexivity|]. eexists _, _. vm_compute. reflexivity.
Qed.
