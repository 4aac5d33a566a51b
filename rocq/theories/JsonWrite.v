(** What the JSON protocols write over a transport without write errors. *)
From Coq Require Import ZArith List Bool Lia String Ascii.
From Coq Require Import ZifyBool ZifyNat.
From Verif Require Import Base Arith Errors Transport Proto Values Strconv JsonText JsonTextProofs F64 GoVal Names
  BufRead Json JsonSpec.
Import ListNotations.
Local Open Scope list_scope.
Local Notation length := List.length.
Open Scope Z_scope.

Definition emits (m : wop jw) (l : list ctx) (t : bytes) (l' : list ctx) : Prop :=
  forall o, m (MkWt o [], l) = Ok (None, (MkWt (o ++ t) [], l')).

Lemma emits_seq : forall m k l t l1 t2 l2, emits m l t l1 -> emits k l1 t2 l2 -> emits (m >>> k) l (t ++ t2) l2.
Proof.
  intros m k l t l1 t2 l2 H1 H2 o. unfold wseq. rewrite H1. cbn [obind]. rewrite H2. now rewrite app_assoc.
Qed.
Lemma emits_eq : forall m l t t' l', emits m l t l' -> t = t' -> emits m l t' l'.
Proof. intros; subst; assumption. Qed.
Lemma emits_nop : forall l, emits nop l [] l.
Proof. intros l o. unfold nop. now rewrite app_nil_r. Qed.

Lemma twrite_calm : forall bs o, twrite bs (MkWt o []) = (Z.of_nat (length bs), None, MkWt (o ++ bs) []).
Proof. reflexivity. Qed.
Lemma copy_calm : forall f bs o, (length bs <= f)%nat -> copy_blocks f bs (MkWt o []) = (None, MkWt (o ++ bs) []).
Proof.
  induction f as [|f IH]; intros bs o L; cbn [copy_blocks].
  - destruct bs; [now rewrite app_nil_r|cbn [length] in L; lia].
  - destruct bs as [|b bs]; [now rewrite app_nil_r|]. rewrite twrite_calm.
    rewrite IH.
    + now rewrite <- app_assoc, firstn_skipn.
    + rewrite skipn_length. assert (0 < copy_block)%nat by (unfold copy_block; lia). cbn [length] in *. lia.
Qed.
Lemma emits_data : forall s l, emits (OutputStringData s) l s l.
Proof. intros s l o. unfold OutputStringData, copy_n. now rewrite copy_calm. Qed.
Lemma emits_raw : forall s l, emits (out_raw s) l s l.
Proof. intros s l o. reflexivity. Qed.

(** What comes before a value. *)
Definition sep (c : ctx) : bytes :=
  match c with InList | NextKey => [44] | NextValue => [58] | _ => [] end.
Lemma emits_pre : forall c l, emits OutputPreValue (c :: l) (sep c) (c :: l).
Proof. intros c l o. destruct c; cbn; rewrite ?app_nil_r; reflexivity. Qed.
Lemma emits_post : forall c l, emits OutputPostValue (c :: l) [] (after_value c :: l).
Proof. intros c l o. cbn. now rewrite app_nil_r. Qed.
Lemma emits_ctx : forall k c l t l', emits (k c) (c :: l) t l' -> emits (with_ctx k) (c :: l) t l'.
Proof. intros k c l t l' H o. unfold with_ctx. cbn [snd]. apply H. Qed.

Lemma emits_value : forall m c l t, emits m (c :: l) t (c :: l) ->
  emits (OutputPreValue >>> m >>> OutputPostValue) (c :: l) (sep c ++ t) (after_value c :: l).
Proof.
  intros m c l t H. apply emits_seq with (c :: l); [apply emits_pre|].
  rewrite <- (app_nil_r t). apply emits_seq with (c :: l); [assumption|apply emits_post].
Qed.

Definition key_quote (J : jenv) (c : ctx) (v : bytes) : bytes :=
  if is_key c then json_quote (j_style J) v else v.
Lemma emits_bool : forall J b c l,
  emits (OutputBool J b) (c :: l) (sep c ++ key_quote J c (lit (if b then "true" else "false"))) (after_value c :: l).
Proof. intros. apply emits_value, emits_ctx. apply emits_data. Qed.
Lemma emits_i64 : forall J z c l,
  emits (OutputI64 J z) (c :: l) (sep c ++ key_quote J c (FormatInt z)) (after_value c :: l).
Proof. intros. apply emits_value, emits_ctx. apply emits_data. Qed.
Lemma emits_f64 : forall J d c l, is_key c = false ->
  emits (OutputF64 J d) (c :: l) (sep c ++ double_text J d) (after_value c :: l).
Proof.
  intros J d c l K. apply emits_value, emits_ctx. unfold double_text. rewrite K. apply emits_data.
Qed.
Lemma emits_str : forall J s c l,
  emits (OutputString J s) (c :: l) (sep c ++ json_quote (j_style J) s) (after_value c :: l).
Proof. intros. apply emits_value. apply emits_data. Qed.

Lemma emits_obj_begin : forall c l, emits OutputObjectBegin (c :: l) (sep c ++ [123]) (ObjFirst :: c :: l).
Proof.
  intros c l. apply emits_seq with (c :: l); [apply emits_pre|].
  apply (emits_seq _ _ _ [123] (c :: l) []); [apply emits_raw|]. intros o. cbn. now rewrite app_nil_r.
Qed.
Lemma emits_list_begin : forall c l, emits OutputListBegin (c :: l) (sep c ++ [91]) (ListFirst :: c :: l).
Proof.
  intros c l. apply emits_seq with (c :: l); [apply emits_pre|].
  apply (emits_seq _ _ _ [91] (c :: l) []); [apply emits_raw|]. intros o. cbn. now rewrite app_nil_r.
Qed.
Lemma emits_end : forall x d c l, emits (out_raw [x] >>> pop >>> OutputPostValue) (d :: c :: l) [x] (after_value c :: l).
Proof.
  intros x d c l. apply (emits_seq _ _ _ [x] (d :: c :: l) []); [apply emits_raw|].
  intros o. cbn. now rewrite app_nil_r.
Qed.
Lemma emits_obj_end : forall d c l, emits OutputObjectEnd (d :: c :: l) [125] (after_value c :: l).
Proof. intros. apply emits_end. Qed.
Lemma emits_list_end : forall d c l, emits OutputListEnd (d :: c :: l) [93] (after_value c :: l).
Proof. intros. apply emits_end. Qed.
Lemma emits_elem_list : forall J et n c l,
  emits (OutputElemListBegin J et n) (c :: l) (sep c ++ [91] ++ FormatInt (wrapu 8 et) ++ [44] ++ FormatInt n)
        (InList :: c :: l).
Proof.
  intros J et n c l. unfold OutputElemListBegin.
  eapply emits_eq; [eapply emits_seq; [apply emits_list_begin|eapply emits_seq; apply emits_i64]|].
  cbn [sep key_quote is_key after_value]. now rewrite <- !app_assoc.
Qed.

(** ** Binaries *)
Lemma b64_write_calm : forall f v o, (length v <= f)%nat ->
  b64_write f v (MkWt o []) = (None, MkWt (o ++ b64_encode (firstn (length v / 3 * 3) v)) []).
Proof.
  induction f as [|f IH]; intros v o L; cbn [b64_write].
  - destruct v; [cbn; now rewrite app_nil_r|cbn [length] in L; lia].
  - destruct (Nat.ltb_spec (length v) 3) as [S3|S3].
    { rewrite Nat.div_small by lia. cbn. now rewrite app_nil_r. }
    set (n := if (length v <? b64_block)%nat then (length v / 3 * 3)%nat else b64_block).
    assert (N : exists m, (n = 3 * m /\ 0 < m)%nat /\ (n <= length v)%nat).
    { unfold n. destruct (Nat.ltb_spec (length v) b64_block).
      - exists (length v / 3)%nat. assert (1 <= length v / 3)%nat by (apply Nat.div_le_lower_bound; lia).
        pose proof (Nat.div_mod (length v) 3). lia.
      - exists 256%nat. unfold b64_block in *. lia. }
    destruct N as (m & [Nm M0] & Nl). clearbody n. cbv zeta. rewrite twrite_calm. cbn [fst snd].
    rewrite IH by (rewrite skipn_length; lia). f_equal. f_equal.
    rewrite <- app_assoc. f_equal. rewrite <- (b64_encode_app m) by (rewrite firstn_length; lia).
    f_equal. rewrite skipn_length.
    replace (length v / 3 * 3)%nat with (n + (length v - n) / 3 * 3)%nat.
    + rewrite firstn_skipn_comm. rewrite <- (firstn_skipn n (firstn (n + (length v - n) / 3 * 3) v)) at 2.
      f_equal. rewrite firstn_firstn. now replace (Nat.min n (n + (length v - n) / 3 * 3)) with n by lia.
    + replace (length v) with ((length v - n) + m * 3)%nat at 2 by lia. rewrite Nat.div_add by lia. lia.
Qed.
Lemma b64_split : forall v, b64_encode v = b64_encode (firstn (length v / 3 * 3) v) ++ b64_encode (b64_rest v).
Proof.
  intros v. unfold b64_rest. rewrite <- (b64_encode_app (length v / 3)).
  - now rewrite firstn_skipn.
  - rewrite firstn_length. pose proof (Nat.div_mod (length v) 3). lia.
Qed.
Lemma b64_close_calm : forall v o, b64_close v (MkWt o []) = (None, MkWt (o ++ b64_encode (b64_rest v)) []).
Proof.
  intros v o. unfold b64_close. destruct (b64_rest v); [cbn; now rewrite app_nil_r|reflexivity].
Qed.
Lemma emits_out : forall f l t, (forall o, f (MkWt o []) = (None, MkWt (o ++ t) [])) -> emits (out_op f) l t l.
Proof. intros f l t H o. unfold out_op. now rewrite H. Qed.
Lemma emits_ignoring : forall m l t l', emits m l t l' -> emits (ignoring m) l t l'.
Proof. intros m l t l' H o. unfold ignoring. now rewrite H. Qed.
Lemma emits_binary : forall v c l (ig : wop jw -> wop jw),
  (forall m l t l', emits m l t l' -> emits (ig m) l t l') ->
  emits (OutputPreValue >>> ig (out_raw [34]) >>> out_op (b64_write (length v) v) >>> ig (out_op (b64_close v)) >>>
         ig (out_raw [34]) >>> OutputPostValue) (c :: l) (sep c ++ quoted (b64_encode v)) (after_value c :: l).
Proof.
  intros v c l ig Hig.
  eapply emits_eq.
  - eapply emits_seq; [apply emits_pre|]. eapply emits_seq; [apply Hig, emits_raw|].
    eapply emits_seq; [apply emits_out; intros; apply b64_write_calm; lia|].
    eapply emits_seq; [apply Hig, emits_out; intros; apply b64_close_calm|].
    eapply emits_seq; [apply Hig, emits_raw|apply emits_post].
  - unfold quoted. rewrite (b64_split v), app_nil_r, <- !app_assoc. reflexivity.
Qed.
Lemma emits_sbinary : forall v c l, emits (sWriteBinary v) (c :: l) (sep c ++ quoted (b64_encode v)) (after_value c :: l).
Proof. intros v c l. apply (emits_binary v c l (fun m => m)). auto. Qed.
Lemma emits_jbinary : forall v c l, emits (jWriteBinary v) (c :: l) (sep c ++ quoted (b64_encode v)) (after_value c :: l).
Proof. intros v c l. apply (emits_binary v c l ignoring). apply emits_ignoring. Qed.

(** ** Quoting plain text *)
Definition plain (c : Z) : Prop := 32 <= c < 127 /\ c <> 34 /\ c <> 92 /\ c <> 60 /\ c <> 62 /\ c <> 38.
Lemma json_quote_plain : forall st s, Forall plain s -> json_quote st s = quoted s.
Proof.
  intros st s F.
  assert (U : s = utf8 s /\ Forall scalar s /\ flat_map (esc st) s = s).
  { induction F as [|c s Hc F IH]; [repeat constructor|]. destruct IH as (U & Sc & E). unfold plain in Hc.
    assert (Hs : scalar c) by (unfold scalar; lia).
    rewrite utf8_cons, <- U. cbn [flat_map]. rewrite E.
    destruct (utf8_encode_cases c Hs) as [[R ->]|[[R _]|[[R _]|[R _]]]]; try lia.
    split; [reflexivity|]. split; [now constructor|].
    unfold esc, escape_ascii. replace (c <? 128) with true by lia.
    replace ((c =? 34) || (c =? 92)) with false by lia. replace (c <? 32) with false by lia.
    replace ((c =? 60) || (c =? 62) || (c =? 38) || (c =? 127)) with false by lia. reflexivity. }
  destruct U as (U & Sc & E). rewrite U at 1. rewrite json_quote_utf8 by assumption.
  unfold quote_text, quoted. now rewrite E.
Qed.
Lemma digits_plain : forall s, Forall (fun c => 48 <= c <= 57) s -> Forall plain s.
Proof. intros s F. eapply Forall_impl; [|exact F]. unfold plain. intros; lia. Qed.
Lemma format_plain : forall z, in_s 64 z -> Forall plain (FormatInt z).
Proof.
  intros z H. destruct (FormatInt_decimal z H); [now apply digits_plain|constructor; [unfold plain; lia|now apply digits_plain]..].
Qed.
Lemma in_s_64 : forall n z, 1 <= n <= 64 -> in_s n z -> in_s 64 z.
Proof.
  unfold in_s. intros n z Hn H. assert (2 ^ (n - 1) <= 2 ^ (64 - 1)) by (apply Z.pow_le_mono_r; lia). lia.
Qed.
Lemma type_plain : forall t, Forall plain (TypeIdToString t).
Proof.
  intros t. unfold TypeIdToString, type_names. cbn [lookup_type].
  repeat match goal with |- context [if ?c then _ else _] => destruct c end;
    unfold plain; cbn; repeat (constructor; [lia|]); constructor.
Qed.

(** ** TJSONProtocol writes [vtext] *)
Section Val.
Variable J : jenv.

Lemma wire_wrap : forall t, wire_type t -> wrapu 8 t = t.
Proof.
  intros t H. unfold wire_type in H. cbn [In] in H.
  repeat (destruct H as [<-|H]; [reflexivity|]). contradiction.
Qed.

Definition writes (v : tval) : Prop := wf v -> forall c l, is_key c = false ->
  emits (write_val (jsonW J) v) (c :: l) (sep c ++ vtext J v) (after_value c :: l).

Lemma writes_items : forall l0, Forall writes l0 -> all (fun x => wf x) l0 -> forall l,
  emits (wseqs (map (write_val (jsonW J)) l0)) (InList :: l) (commas (map (vtext J) l0)) (InList :: l).
Proof.
  intros l0 F. induction F as [|v l0 Hv F IH]; intros W l; cbn [map wseqs].
  - apply emits_nop.
  - destruct W as [W1 W2]. unfold commas. cbn [map flat_map].
    eapply emits_seq; [apply (Hv W1 InList l eq_refl)|apply IH; assumption].
Qed.

Lemma all_and : forall A (P Q : A -> Prop) l, all (fun x => P x /\ Q x) l -> all Q l.
Proof. intros A P Q l. induction l as [|x l IH]; cbn; [auto|]. intros [[_ H] H']. auto. Qed.

Lemma vtext_key : forall c t, is_key c = false -> key_quote J c t = t.
Proof. intros c t H. unfold key_quote. now rewrite H. Qed.

Definition field_text (f : Z * tval) : bytes :=
  quoted (FormatInt (fst f)) ++ [58; 123] ++ type_text (vtype (snd f)) ++ [58] ++ vtext J (snd f) ++ [125].

Lemma writes_field : forall f c l, writes (snd f) -> in_s 16 (fst f) -> wf (snd f) -> is_key c = true ->
  emits (wFieldBegin (jsonW J) [] (vtype (snd f)) (fst f) >>> write_val (jsonW J) (snd f) >>> wFieldEnd (jsonW J))
    (c :: l) (sep c ++ field_text f) (NextKey :: l).
Proof.
  intros [id v] c l Hv Hid W K. cbn [fst snd] in *.
  assert (Ka : after_value c = NextValue) by (destruct c; try discriminate K; reflexivity).
  change (wFieldBegin (jsonW J) [] (vtype v) id) with
    (OutputI64 J id >>> OutputObjectBegin >>> OutputString J (TypeIdToString (vtype v))).
  change (wFieldEnd (jsonW J)) with OutputObjectEnd.
  eapply emits_eq.
  - eapply emits_seq.
    + eapply emits_seq; [apply emits_i64|]. rewrite Ka.
      eapply emits_seq; [apply emits_obj_begin|apply emits_str].
    + cbn [after_value]. eapply emits_seq; [apply Hv; [assumption|reflexivity]|].
      cbn [after_value]. apply emits_obj_end.
  - unfold field_text, key_quote, type_text. rewrite K. cbn [fst snd sep].
    rewrite !json_quote_plain; [|apply type_plain|apply format_plain, (in_s_64 16); [lia|assumption]].
    now rewrite <- !app_assoc.
Qed.

Lemma writes_fields : forall fs c l, Forall (fun f => writes (snd f)) fs ->
  all (fun f => in_s 16 (fst f) /\ wf (snd f)) fs -> is_key c = true ->
  exists c', is_key c' = true /\
  emits (wseqs (map (fun f => wFieldBegin (jsonW J) [] (vtype (snd f)) (fst f) >>>
                         write_val (jsonW J) (snd f) >>> wFieldEnd (jsonW J)) fs))
    (c :: l) (match fs with [] => [] | _ => sep c ++ tl (flat_map (fun f => 44 :: field_text f) fs) end) (c' :: l).
Proof.
  intros fs. induction fs as [|f fs IH]; intros c l F W K.
  - exists c. split; [assumption|]. cbn [map wseqs]. apply emits_nop.
  - inversion F as [|? ? Ff Ffs]; subst. destruct W as [[W1 W2] W3].
    destruct (IH NextKey l Ffs W3 eq_refl) as (c' & K' & E).
    exists c'. split; [assumption|]. cbn [map wseqs flat_map tl app].
    eapply emits_eq; [eapply emits_seq; [apply writes_field; eassumption|exact E]|].
    destruct fs as [|f2 fs]; [cbn; now rewrite !app_nil_r|]. cbn [flat_map tl app sep]. now rewrite <- app_assoc.
Qed.

Theorem write_val_text : forall v, writes v.
Proof.
  intros v. pattern v. apply tval_ind'; clear v; unfold writes;
    [intros b|intros z|intros z|intros z|intros z|intros z|intros s|intros et l0 F|intros et l0 F|intros kt vt l0 F|intros fs F];
    intros W c l K.
  - eapply emits_eq; [apply emits_bool|]. now rewrite vtext_key.
  - eapply emits_eq; [apply emits_i64|]. now rewrite vtext_key.
  - eapply emits_eq; [apply emits_i64|]. now rewrite vtext_key.
  - eapply emits_eq; [apply emits_i64|]. now rewrite vtext_key.
  - eapply emits_eq; [apply emits_i64|]. now rewrite vtext_key.
  - now apply emits_f64.
  - apply emits_str.
  - destruct W as (Wt & Wl & Wa). cbn [write_val vtext].
    change (wListBegin (jsonW J)) with (OutputElemListBegin J). change (wListEnd (jsonW J)) with OutputListEnd.
    eapply emits_eq.
    + eapply emits_seq; [apply emits_elem_list|]. eapply emits_seq; [|apply emits_list_end].
      apply writes_items; [assumption|]. eapply all_and, Wa.
    + rewrite wire_wrap by assumption. now rewrite <- !app_assoc.
  - destruct W as (Wt & Wl & Wa). cbn [write_val vtext].
    change (wSetBegin (jsonW J)) with (OutputElemListBegin J). change (wSetEnd (jsonW J)) with OutputListEnd.
    eapply emits_eq.
    + eapply emits_seq; [apply emits_elem_list|]. eapply emits_seq; [|apply emits_list_end].
      apply writes_items; [assumption|]. eapply all_and, Wa.
    + rewrite wire_wrap by assumption. now rewrite <- !app_assoc.
  - destruct W as (Wk & Wv & Wl & Wa). cbn [write_val vtext].
    change (wMapBegin (jsonW J) kt vt (Z.of_nat (length l0))) with
      (OutputListBegin >>> OutputString J (TypeIdToString kt) >>>
       OutputString J (TypeIdToString vt) >>> WriteI64 J (Z.of_nat (length l0))).
    change (wMapEnd (jsonW J)) with OutputListEnd.
    assert (E : emits (wseqs (map (fun kv => write_val (jsonW J) (fst kv) >>> write_val (jsonW J) (snd kv)) l0))
                  (InList :: c :: l)
                  (flat_map (fun kv => 44 :: vtext J (fst kv) ++ 44 :: vtext J (snd kv)) l0) (InList :: c :: l)).
    { clear Wl. induction F as [|[x y] l0 [Hx Hy] F IH]; cbn [map wseqs flat_map].
      - apply emits_nop.
      - destruct Wa as [[[_ Wx] [_ Wy]] Wa]. cbn [fst snd] in *.
        eapply emits_eq; [eapply emits_seq; [eapply emits_seq;
          [apply Hx; [assumption|reflexivity]|apply Hy; [assumption|reflexivity]]|apply IH, Wa]|].
        cbn [sep app]. now rewrite <- !app_assoc. }
    eapply emits_eq.
    + eapply emits_seq.
      * eapply emits_seq; [apply emits_list_begin|]. eapply emits_seq; [apply emits_str|].
        eapply emits_seq; [apply emits_str|apply emits_i64].
      * cbn [after_value]. eapply emits_seq; [exact E|apply emits_list_end].
    + cbn [sep after_value key_quote is_key]. unfold key_quote, type_text. cbn [is_key after_value].
      rewrite !json_quote_plain by apply type_plain.
      repeat (progress (cbn [app]; rewrite <- ?app_assoc)). reflexivity.
  - cbn [write_val vtext].
    change (wStructBegin (jsonW J) []) with OutputObjectBegin. change (wFieldStop (jsonW J)) with (@nop jw).
    change (wStructEnd (jsonW J)) with OutputObjectEnd.
    destruct (writes_fields fs ObjFirst (c :: l) F W eq_refl) as (c' & K' & E).
    eapply emits_eq.
    + eapply emits_seq; [apply emits_obj_begin|]. eapply emits_seq; [exact E|].
      eapply emits_seq; [apply emits_nop|apply emits_obj_end].
    + rewrite <- !app_assoc. f_equal. cbn [app]. f_equal.
      destruct fs as [|f fs]; [reflexivity|]. cbn [sep app flat_map tl]. reflexivity.
Qed.
End Val.
