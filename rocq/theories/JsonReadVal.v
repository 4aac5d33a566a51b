(** TJSONProtocol reads back the text of a value. *)
From Coq Require Import ZArith List Bool Lia String Ascii.
From Coq Require Import ZifyBool ZifyNat.
From Verif Require Import Base Arith Errors Transport TransportProofs Proto Values Access Strconv JsonText JsonTextProofs
  F64 GoVal Names BufIO BufRead BufReadProofs Json JsonSpec JsonWrite JsonRead.
Import ListNotations.
Local Open Scope list_scope.
Local Notation length := List.length.
Open Scope Z_scope.

(** ** Strings *)
Definition trail (w : bytes) : nat := count_while 92 (rev w).
Lemma backslashes_trail : forall w, backslashes (w ++ [34]) = trail w.
Proof. intros w. unfold backslashes, trail. now rewrite rev_app_distr. Qed.
Lemma count_stop : forall l c m, c <> 92 -> count_while 92 (l ++ c :: m) = count_while 92 l.
Proof.
  intros l c m N. induction l as [|x l IH]; cbn [app count_while].
  - now destruct (Z.eqb_spec c 92).
  - destruct (x =? 92); [now rewrite IH|reflexivity].
Qed.
Lemma count_two : forall l, Nat.even (count_while 92 (l ++ [92; 92])) = Nat.even (count_while 92 l).
Proof.
  intros l. induction l as [|x l IH]; cbn [app count_while]; [reflexivity|].
  destruct (x =? 92); [|reflexivity]. rewrite !Nat.even_succ, <- !Nat.negb_even. now rewrite IH.
Qed.
Lemma trail_plain : forall c w, c <> 92 -> trail (c :: w) = trail w.
Proof. intros c w N. unfold trail. cbn [rev]. now apply count_stop. Qed.
Lemma trail_esc : forall c w, c <> 34 -> Nat.even (trail (92 :: c :: w)) = Nat.even (trail w).
Proof.
  intros c w N. unfold trail. cbn [rev]. rewrite <- app_assoc. cbn [app].
  destruct (Z.eq_dec c 92) as [->|Nc]; [apply count_two|]. now rewrite count_stop.
Qed.

Lemma body_split : forall w, body w ->
  (~ In 34 w /\ Nat.even (trail w) = true) \/
  (exists w1 w2, w = w1 ++ 34 :: w2 /\ ~ In 34 w1 /\ Nat.even (trail w1) = false /\ body w2).
Proof.
  intros w B. induction B as [|c w N1 N2 B IH|c w B IH].
  - left. split; [auto|reflexivity].
  - destruct IH as [[I E]|(w1 & w2 & -> & I & E & B2)].
    + left. split; [intros [X|X]; auto|]. now rewrite trail_plain.
    + right. exists (c :: w1), w2. repeat split; auto; [intros [X|X]; auto|]. now rewrite trail_plain.
  - destruct (Z.eq_dec c 34) as [->|Nc].
    { right. exists [92], w. repeat split; auto. intros [X|[]]; lia. }
    destruct IH as [[I E]|(w1 & w2 & -> & I & E & B2)].
    + left. split; [intros [X|[X|X]]; auto; lia|]. now rewrite trail_esc.
    + right. exists (92 :: c :: w1), w2. repeat split; auto; [intros [X|[X|X]]; auto; lia|]. now rewrite trail_esc.
Qed.

Lemma fits_le : forall k a b, fits k b -> (length a <= length b)%nat -> fits k a.
Proof. intros [|k| |] a b H L; try exact I. unfold fits in *. lia. Qed.

Lemma quoted_body_view : forall fuel w k b prev s rest, body w -> fits k w ->
  view k b prev (w ++ 34 :: s) rest -> (length w < fuel)%nat ->
  exists b', ParseQuotedStringBody fuel b = Ok (inl (w ++ [34]), b') /\ view k b' 34 s rest.
Proof.
  induction fuel as [|f IH]; intros w k b prev s rest B Fi V L; [lia|]. cbn [ParseQuotedStringBody].
  destruct (body_split w B) as [[I E]|(w1 & w2 & -> & I & E & B2)].
  - destruct (until_view k b prev w 34 s rest V I Fi) as (b' & -> & V').
    rewrite backslashes_trail, E. eauto.
  - rewrite <- app_assoc in V. cbn [app] in V. rewrite app_length in L. cbn [length] in L.
    assert (Fi1 : fits k w1) by (eapply fits_le; [exact Fi|rewrite app_length; lia]).
    assert (Fi2 : fits k w2) by (eapply fits_le; [exact Fi|rewrite app_length; cbn [length]; lia]).
    destruct (until_view k b prev w1 34 _ rest V I Fi1) as (b' & -> & V').
    rewrite backslashes_trail, E.
    destruct (IH w2 k b' 34 s rest B2 Fi2 V' ltac:(lia)) as (b2 & -> & V2). cbn [obind].
    rewrite <- !app_assoc. cbn [app]. eauto.
Qed.

Lemma string_body_view : forall w v k b prev s rest, body w -> fits k w -> json_unquote (quoted w) = Some v ->
  view k b prev (w ++ 34 :: s) rest ->
  exists b', ParseStringBody b = Ok (v, None, b') /\ view k b' 34 s rest.
Proof.
  intros w v k b prev s rest B Fi U V. unfold ParseStringBody, quoted in *.
  destruct (body_split w B) as [[I E]|(w1 & w2 & -> & I & E & B2)].
  - destruct (until_view k b prev w 34 s rest V I Fi) as (b' & -> & V').
    rewrite backslashes_trail, E, U. eauto.
  - rewrite <- app_assoc in V. cbn [app] in V.
    assert (Fi1 : fits k w1) by (eapply fits_le; [exact Fi|rewrite app_length; lia]).
    assert (Fi2 : fits k w2) by (eapply fits_le; [exact Fi|rewrite app_length; cbn [length]; lia]).
    destruct (until_view k b prev w1 34 _ rest V I Fi1) as (b1 & -> & V1).
    rewrite backslashes_trail, E.
    rewrite (view_fuel _ _ _ _ _ V1).
    destruct (quoted_body_view (S (length ((w2 ++ 34 :: s) ++ rest))) w2 k b1 34 s rest B2 Fi2 V1) as (b2 & -> & V2).
    { rewrite !app_length. lia. }
    cbn [obind].
    replace ([34] ++ (w1 ++ [34]) ++ w2 ++ [34]) with ([34] ++ (w1 ++ 34 :: w2) ++ [34])
      by (cbn [app]; rewrite <- !app_assoc; reflexivity).
    rewrite U. eauto.
Qed.

Lemma b64_body_view : forall v k b prev s rest, is_bytes v -> fits k (b64_encode v) ->
  view k b prev (b64_encode v ++ 34 :: s) rest ->
  exists b', ParseBase64EncodedBody b = Ok (v, None, b') /\ view k b' 34 s rest.
Proof.
  intros v k b prev s rest B Fi V. unfold ParseBase64EncodedBody.
  assert (I : ~ In 34 (b64_encode v)).
  { intros X. pose proof (b64_no_quote v B) as F. rewrite Forall_forall in F. now apply (F 34). }
  destruct (until_view k b prev _ 34 s rest V I Fi) as (b' & -> & V').
  rewrite removelast_last, b64_decode_encode by assumption. cbn. eauto.
Qed.

Lemma read_quoted_view : forall bd c w v k b prev s rest l,
  ready k b c -> view k b prev (sep c ++ quoted w ++ s) rest -> nows (s ++ rest) ->
  (forall b0 prev0, view k b0 prev0 (w ++ 34 :: s) rest ->
     exists b1, bd b0 = Ok (v, None, b1) /\ view k b1 34 s rest) ->
  exists b', read_quoted bd (b, c :: l) = Ok (v, None, (b', after_value c :: l)) /\ view k b' 34 s rest.
Proof.
  intros bd c w v k b prev s rest l Rd V N H.
  destruct (pre_view k b prev c l (quoted w ++ s) rest V eq_refl Rd) as (b1 & p1 & E1 & V1 & _).
  unfold read_quoted, pre. rewrite E1. cbn [obind].
  destruct (peek_view 4 _ _ _ _ _ V1) as (b2 & -> & V2 & _); [lia|].
  unfold quoted in *. cbn [app firstn] in *. rewrite <- app_assoc in V2. cbn [app] in V2.
  destruct (byte_view _ _ _ _ _ _ V2) as (b3 & -> & V3). cbn [snd].
  destruct (H _ _ V3) as (b4 & -> & V4). cbn [obind].
  destruct (post_view bytes v k b4 34 c l s rest V4 N) as (b5 & -> & V5). eauto.
Qed.

(** A string literal as WriteString gives it. *)
Lemma ReadString_view : forall st c cs k b prev s rest l, Forall scalar cs -> fits k (json_quote st (utf8 cs)) ->
  ready k b c -> view k b prev (sep c ++ json_quote st (utf8 cs) ++ s) rest -> nows (s ++ rest) ->
  exists b', ReadString (b, c :: l) = Ok (utf8 cs, None, (b', after_value c :: l)) /\ view k b' 34 s rest.
Proof.
  intros st c cs k b prev s rest l F Fi Rd V N.
  pose proof (unquote_quote st cs F) as U. rewrite json_quote_utf8 in * by assumption.
  change (quote_text st cs) with (quoted (flat_map (esc st) cs)) in *.
  eapply read_quoted_view; [exact Rd|exact V|assumption|]. intros b0 prev0 V0.
  eapply (string_body_view (flat_map (esc st) cs)); [now apply body_escs| |exact U|exact V0].
  eapply fits_le; [exact Fi|]. unfold quoted. rewrite !app_length. lia.
Qed.
Lemma ReadBinary_view : forall c v k b prev s rest l, is_bytes v -> fits k (b64_encode v) ->
  ready k b c -> view k b prev (sep c ++ quoted (b64_encode v) ++ s) rest -> nows (s ++ rest) ->
  exists b', ReadBinary (b, c :: l) = Ok (v, None, (b', after_value c :: l)) /\ view k b' 34 s rest.
Proof.
  intros c v k b prev s rest l B Fi Rd V N.
  eapply read_quoted_view; [exact Rd|exact V|assumption|]. intros b0 prev0 V0. eapply b64_body_view; eassumption.
Qed.
(** The name of a type. *)
Lemma plain_utf8 : forall s, Forall plain s -> s = utf8 s /\ Forall scalar s.
Proof.
  intros s F. induction F as [|c s Hc F [IH1 IH2]]; [repeat constructor|]. unfold plain in Hc.
  assert (Hs : scalar c) by (unfold scalar; lia). rewrite utf8_cons, <- IH1.
  destruct (utf8_encode_cases c Hs) as [[R ->]|[[R _]|[[R _]|[R _]]]]; try lia.
  split; [reflexivity|now constructor].
Qed.
Lemma type_short : forall t, (length (TypeIdToString t) <= 3)%nat.
Proof.
  intros t. unfold TypeIdToString, type_names. cbn [lookup_type].
  repeat match goal with |- context [if ?c then _ else _] => destruct c end; cbn; lia.
Qed.
Lemma ReadString_type : forall c t k b prev s rest l,
  ready k b c -> view k b prev (sep c ++ type_text t ++ s) rest -> nows (s ++ rest) ->
  exists b', ReadString (b, c :: l) = Ok (TypeIdToString t, None, (b', after_value c :: l)) /\ view k b' 34 s rest.
Proof.
  intros c t k b prev s rest l Rd V N. destruct (plain_utf8 _ (type_plain t)) as [U Sc].
  unfold type_text in V. rewrite <- (json_quote_plain st10) in V by apply type_plain.
  rewrite U in V.
  assert (Fi : fits k (json_quote st10 (utf8 (TypeIdToString t)))).
  2:{ destruct (ReadString_view st10 c (TypeIdToString t) k b prev s rest l Sc Fi Rd V N) as (b' & E & V').
      rewrite <- U in E. eauto. }
  rewrite <- U, json_quote_plain by apply type_plain. pose proof (v_room _ _ _ _ _ V) as Ro.
  destruct k as [|k| |]; try exact I. unfold fits, quoted. destruct Ro as [Ro _].
  pose proof (type_short t). rewrite !app_length. cbn [length]. lia.
Qed.

(** ** Booleans *)
Lemma ReadBool_view : forall c (v : bool) k b prev s rest l,
  ready k b c -> view k b prev (sep c ++ lit (if v then "true" else "false") ++ s) rest -> nows (s ++ rest) ->
  exists b' prev', ReadBool (b, c :: l) = Ok (v, None, (b', after_value c :: l)) /\ view k b' prev' s rest.
Proof.
  intros c v k b prev s rest l Rd V N.
  destruct (pre_view k b prev c l (lit (if v then "true" else "false") ++ s) rest V) as (b1 & p1 & E1 & V1 & _).
  { now destruct v. }
  { exact Rd. }
  unfold ReadBool, pre. rewrite E1. cbn [obind].
  destruct (peek_view 5 _ _ _ _ _ V1) as (b2 & -> & V2 & Lu); [lia|].
  assert (Lw : (length (lit (if v then "true" else "false")) <= length (b_un b2))%nat).
  { rewrite !app_length in Lu. destruct v; cbn [lit length list_byte_of_string] in *; cbn in *; lia. }
  assert (Fw : firstn (length (lit (if v then "true" else "false"))) (b_un b2) = lit (if v then "true" else "false")).
  { rewrite (firstn_pre _ _ (b_un b2) (content (b_rt b2))) by lia. rewrite (v_con _ _ _ _ _ V2), <- app_assoc.
    rewrite firstn_app, firstn_all, Nat.sub_diag. cbn. apply app_nil_r. }
  assert (W : forall w, length w = length (lit (if v then "true" else "false")) -> w = lit (if v then "true" else "false") ->
    (length (b_un b2 ++ b_after b2) <? length w)%nat = false /\
    beq (firstn (length w) (b_un b2 ++ b_after b2)) w = true).
  { intros w Lw' ->. split; [apply Nat.ltb_ge; rewrite app_length; lia|].
    apply beq_eq. rewrite <- firstn_pre by lia. exact Fw. }
  assert (Rw : exists b3, b_read (length (lit (if v then "true" else "false"))) b2 =
                          (lit (if v then "true" else "false"), None, b3) /\
                          view k b3 (last (lit (if v then "true" else "false")) p1) s rest).
  { apply read_view; [exact V2|now destruct v|exact Lw]. }
  destruct Rw as (b3 & Rw & V3).
  destruct (post_view bool v k b3 _ c l s rest V3 N) as (b4 & E4 & V4).
  exists b4, (last (lit (if v then "true" else "false")) p1). split; [|assumption].
  destruct v.
  - destruct (W (lit "true") eq_refl eq_refl) as [W1 W2].
    change (firstn 5 ((lit "true" ++ s) ++ rest)) with (116 :: firstn 4 ((tl (lit "true") ++ s) ++ rest)).
    cbv iota zeta. change (116 =? 116) with true. cbv iota. rewrite W1, W2, Rw. exact E4.
  - destruct (W (lit "false") eq_refl eq_refl) as [W1 W2].
    change (firstn 5 ((lit "false" ++ s) ++ rest)) with (102 :: firstn 4 ((tl (lit "false") ++ s) ++ rest)).
    cbv iota zeta. change (102 =? 116) with false. change (102 =? 102) with true. cbv iota. rewrite W1, W2, Rw. exact E4.
Qed.

(** ** Lists and objects *)
Lemma ListBegin_view : forall c k b prev s rest l,
  ready k b c -> view k b prev (sep c ++ 91 :: s) rest -> (3 <= length (s ++ rest))%nat ->
  exists b', ParseListBegin (b, c :: l) = Ok (false, None, (b', ListFirst :: c :: l)) /\ view k b' 91 s rest.
Proof.
  intros c k b prev s rest l Rd V L.
  destruct (pre_view k b prev c l (91 :: s) rest V eq_refl Rd) as (b1 & p1 & E1 & V1 & _).
  unfold ParseListBegin, pre. rewrite E1. cbn [obind].
  destruct (peek_view 4 _ _ _ _ _ V1) as (b2 & -> & V2 & _); [lia|].
  replace (4 <=? length ((91%Z :: s) ++ rest))%nat with true by (cbn [app length]; lia).
  cbn [app firstn]. destruct (byte_view _ _ _ _ _ _ V2) as (b3 & -> & V3). cbn [snd]. eauto.
Qed.
Lemma ObjectStart_view : forall c k b prev s rest l, ready k b c -> view k b prev (sep c ++ 123 :: s) rest ->
  exists b', ParseObjectStart (b, c :: l) = Ok (false, None, (b', ObjFirst :: c :: l)) /\ view k b' 123 s rest.
Proof.
  intros c k b prev s rest l Rd V.
  destruct (pre_view k b prev c l (123 :: s) rest V eq_refl Rd) as (b1 & p1 & E1 & V1 & _).
  unfold ParseObjectStart, pre. rewrite E1. cbn [obind].
  destruct (peek_view 4 _ _ _ _ _ V1) as (b2 & -> & V2 & _); [lia|].
  cbn [app firstn]. destruct (byte_view _ _ _ _ _ _ V2) as (b3 & -> & V3). cbn [snd]. eauto.
Qed.
Lemma end_view : forall inside close c d k b prev s rest l, inside d = true -> is_ws close = false -> close <> 110 ->
  view k b prev (close :: s) rest -> nows (s ++ rest) ->
  exists b', parse_end inside close (b, d :: c :: l) = Ok (None, (b', after_value c :: l)) /\ view k b' close s rest.
Proof.
  intros inside close c d k b prev s rest l Hi Hc Hn V N. unfold parse_end.
  destruct (not_null _ _ _ _ _ V) as (b1 & -> & V1); [exact Hc|exact Hn|].
  rewrite Hi. destruct (until_view k b1 prev [] close s rest V1) as (b2 & -> & V2); [auto| |].
  { eapply fits_small; [eassumption|]. cbn; lia. }
  cbn [app forallb]. rewrite Z.eqb_refl, orb_true_r. cbn [andb].
  destruct (skip_same _ _ _ _ _ V2 N) as [V3 _]. eexists. split; [reflexivity|assumption].
Qed.

Lemma view_eq : forall k b prev s s' rest, view k b prev s rest -> s = s' -> view k b prev s' rest.
Proof. intros; subst; assumption. Qed.

(** ** Values *)
Section Val.
Variable J : jenv.
Variable k : mode.

(** The reader delivers [v] from the text [t], whatever text in [fol] comes after it. *)
Definition delivers (v : tval) (l : list ctx) (t : bytes) (l' : list ctx) (fol : bytes -> Prop) : Prop :=
  forall b prev s rest, view k b prev (t ++ s) rest -> fol (s ++ rest) ->
  exists b' prev', rd false (jsonR J) v (b, l) (b', l') /\ view k b' prev' s rest.

Definition key_text (c : ctx) (t : bytes) : bytes := if is_key c then quoted t else t.

(** Integers *)
Lemma ReadI64_view : forall c z b prev s rest l, ready k b c -> in_s 64 z ->
  view k b prev (sep c ++ key_text c (FormatInt z) ++ s) rest -> delim (s ++ rest) ->
  exists b' prev', ReadI64 J (b, c :: l) = Ok (z, None, (b', after_value c :: l)) /\ view k b' prev' s rest.
Proof.
  intros c z b prev s rest l Rd H V D.
  destruct (ParseNum_view J fst c (is_key c) (FormatInt z) k b prev s rest l Rd V (numeric_format z H) D)
    as (b' & p' & E & V'). exists b', p'. split; [|assumption].
  unfold ReadI64. rewrite E. unfold parsed. now rewrite ParseInt_FormatInt.
Qed.
Lemma rconv_view : forall f c z b prev s rest l, ready k b c -> in_s 64 z -> f z = z ->
  view k b prev (sep c ++ key_text c (FormatInt z) ++ s) rest -> delim (s ++ rest) ->
  exists b' prev', rconv f (ReadI64 J) (b, c :: l) = Ok (z, None, (b', after_value c :: l)) /\ view k b' prev' s rest.
Proof.
  intros f c z b prev s rest l Rd H Fz V D.
  destruct (ReadI64_view c z b prev s rest l Rd H V D) as (b' & p' & E & V'). exists b', p'.
  split; [|assumption]. unfold rconv. rewrite E. cbn [obind]. now rewrite Fz.
Qed.

Hypothesis Kl : k <> Loose.
Lemma rdy : forall b c, ready k b c.
Proof. left; exact Kl. Qed.
(** Headers *)
Lemma ElemList_view : forall c et n b prev s rest l, in_u 8 et -> in_s 64 n ->
  view k b prev (sep c ++ [91] ++ FormatInt et ++ [44] ++ FormatInt n ++ s) rest -> delim (s ++ rest) ->
  exists b' prev', ParseElemListBegin J (b, c :: l) = Ok ((et, n), None, (b', InList :: c :: l)) /\ view k b' prev' s rest.
Proof.
  intros c et n b prev s rest l He Hn V D. unfold ParseElemListBegin.
  assert (He64 : in_s 64 et) by (unfold in_u, in_s in *; lia).
  assert (L1 : forall z, in_s 64 z -> (1 <= length (FormatInt z))%nat).
  { intros z Hz. destruct (numeric_format z Hz) as [X _]. destruct (FormatInt z); [congruence|cbn; lia]. }
  pose proof (L1 et He64). pose proof (L1 n Hn).
  destruct (ListBegin_view c k b prev (FormatInt et ++ [44] ++ FormatInt n ++ s) rest l (rdy _ _) V) as (b1 & -> & V1).
  { rewrite !app_length. cbn [length]. lia. }
  cbn [obind]. unfold ReadByte.
  destruct (rconv_view (wrapu 8) ListFirst et b1 91 ([44] ++ FormatInt n ++ s) rest (c :: l) (rdy _ _) He64) as (b2 & p2 & -> & V2);
    [unfold wrapu, in_u in *; apply Z.mod_small; lia|exact V1|cbn; tauto|].
  cbn [obind after_value].
  destruct (ReadI64_view InList n b2 p2 s rest (c :: l) (rdy _ _) Hn V2 D) as (b3 & p3 & -> & V3).
  cbn [obind]. eauto.
Qed.
Lemma wire_u8 : forall t, wire_type t -> in_u 8 t.
Proof.
  intros t W. unfold wire_type in W. cbn [In] in W.
  repeat (destruct W as [<-|W]; [split; [discriminate|reflexivity]|]). contradiction.
Qed.
Lemma type_round : forall t, wire_type t -> t <> I16 -> StringToTypeId (TypeIdToString t) = t.
Proof.
  intros t W N. unfold wire_type in W. cbn [In] in W.
  repeat (destruct W as [<-|W]; [try reflexivity; congruence|]). contradiction.
Qed.
Lemma MapBegin_view : forall c kt vt n b prev s rest l, wire_type kt -> wire_type vt -> kt <> I16 -> vt <> I16 -> in_s 64 n ->
  view k b prev (sep c ++ [91] ++ type_text kt ++ [44] ++ type_text vt ++ [44] ++ FormatInt n ++ s) rest -> delim (s ++ rest) ->
  exists b' prev', jReadMapBegin J (b, c :: l) = Ok ((kt, vt, n), None, (b', InList :: c :: l)) /\ view k b' prev' s rest.
Proof.
  intros c kt vt n b prev s rest l Wk Wv Nk Nv Hn V D. unfold jReadMapBegin.
  destruct (ListBegin_view c k b prev (type_text kt ++ [44] ++ type_text vt ++ [44] ++ FormatInt n ++ s) rest l (rdy _ _) V)
    as (b1 & -> & V1).
  { unfold type_text, quoted. rewrite !app_length. cbn [length]. lia. }
  cbn [obind].
  destruct (ReadString_type ListFirst kt k b1 91 ([44] ++ type_text vt ++ [44] ++ FormatInt n ++ s) rest (c :: l) (rdy _ _) V1 eq_refl)
    as (b2 & -> & V2). cbn [obind after_value].
  destruct (ReadString_type InList vt k b2 34 ([44] ++ FormatInt n ++ s) rest (c :: l) (rdy _ _) V2 eq_refl)
    as (b3 & -> & V3). cbn [obind after_value].
  destruct (ReadI64_view InList n b3 34 s rest (c :: l) (rdy _ _) Hn V3 D) as (b4 & p4 & -> & V4).
  cbn [obind]. rewrite !type_round by assumption. eauto.
Qed.

(** The conditions on a value: every string is UTF-8 and fits, every double is formatted and parsed
    back, no struct field or map entry is of type I16. *)
Definition text_ok (s : bytes) : Prop :=
  (exists cs, Forall scalar cs /\ s = utf8 cs) /\ fits k (json_quote (j_style J) s).
Definition float_ok (d : Z) : Prop :=
  f64_is_nan d = true \/ d = INF \/ d = NEG_INF \/
  (number (x_fmt64 (j_ext J) d) /\ fst (x_parse_float (j_ext J) (x_fmt64 (j_ext J) d)) = d).
Fixpoint plain_val (v : tval) : Prop :=
  match v with
  | VDouble d => float_ok d
  | VStr s => text_ok s
  | VList _ l | VSet _ l => all plain_val l
  | VMap kt vt l => kt <> I16 /\ vt <> I16 /\ all (fun kv => plain_val (fst kv) /\ plain_val (snd kv)) l
  | VStruct fs => all (fun f => vtype (snd f) <> I16 /\ plain_val (snd f)) fs
  | _ => True
  end.
(** All NaNs are written as "NaN". *)
Fixpoint canon (v : tval) : tval :=
  match v with
  | VDouble d => VDouble (if f64_is_nan d then GO_NAN else d)
  | VList et l => VList et (map canon l)
  | VSet et l => VSet et (map canon l)
  | VMap kt vt l => VMap kt vt (map (fun kv => (canon (fst kv), canon (snd kv))) l)
  | VStruct fs => VStruct (map (fun f => (fst f, canon (snd f))) fs)
  | _ => v
  end.
(** Numbers are read up to a delimiter. *)
Definition follows (v : tval) (t : bytes) : Prop :=
  match v with
  | VByte _ | VI16 _ | VI32 _ | VI64 _ => delim t
  | VDouble d => if f64_is_nan d || (d =? INF) || (d =? NEG_INF) then nows t else delim t
  | _ => nows t
  end.
Lemma follows_delim : forall v t, delim t -> follows v t.
Proof.
  intros v t D. destruct v; cbn; auto using delim_nows. destruct (_ || _); auto using delim_nows.
Qed.

Definition good (v : tval) : Prop :=
  wf v -> plain_val v -> forall c l, is_key c = false ->
  delivers (canon v) (c :: l) (sep c ++ vtext J v) (after_value c :: l) (follows v).
Lemma vtype_canon : forall v, vtype (canon v) = vtype v.
Proof. now intros []. Qed.
Lemma need_canon : forall v, need (canon v) = need v.
Proof.
  intros v. pattern v. apply tval_ind'; clear v; try reflexivity; intros; cbn [canon need].
  1-2: rewrite map_map; do 2 f_equal; apply map_ext_in; now rewrite <- Forall_forall.
  - rewrite map_map. do 2 f_equal. apply map_ext_in. intros [a b] I. rewrite Forall_forall in H. cbn [fst snd].
    destruct (H _ I) as [Ha Hb]. cbn [fst snd] in *. congruence.
  - f_equal. induction H as [|f fs Hf F IH]; [reflexivity|]. cbn [map fold_right fst snd]. now rewrite Hf, IH.
Qed.

Lemma all_app_head : forall (t u : bytes), delim (44 :: t) /\ delim (93 :: u) /\ delim (125 :: u) /\ delim (58 :: u).
Proof. intros. cbn. tauto. Qed.

Lemma good_items : forall et l0, Forall good l0 -> all (fun x => vtype x = et /\ wf x) l0 -> all plain_val l0 ->
  forall l b prev s rest, view k b prev (commas (map (vtext J) l0) ++ s) rest -> delim (s ++ rest) ->
  exists b' prev', rds false (jsonR J) (map canon l0) (b, InList :: l) (b', InList :: l) /\ view k b' prev' s rest.
Proof.
  intros et l0 G. induction G as [|v l0 Gv G IH]; intros W P l b prev s rest V D.
  - exists b, prev. split; [constructor|exact V].
  - destruct W as [[Wt Wv] W]. destruct P as [Pv P].
    unfold commas in V. cbn [map flat_map app length] in V.
    assert (D1 : delim ((commas (map (vtext J) l0) ++ s) ++ rest)).
    { unfold commas. destruct l0; cbn; [exact D|tauto]. }
    destruct (Gv Wv Pv InList l eq_refl b prev (commas (map (vtext J) l0) ++ s) rest) as (b1 & p1 & E1 & V1).
    { cbn [sep app]. rewrite <- app_assoc in V. unfold commas. exact V. }
    { now apply follows_delim. }
    cbn [after_value] in E1.
    destruct (IH W P l b1 p1 s rest V1 D) as (b2 & p2 & E2 & V2).
    exists b2, p2. split; [|assumption]. econstructor; eassumption.
Qed.

Lemma good_pairs : forall kt vt l0, Forall (fun kv => good (fst kv) /\ good (snd kv)) l0 ->
  all (fun kv => (vtype (fst kv) = kt /\ wf (fst kv)) /\ (vtype (snd kv) = vt /\ wf (snd kv))) l0 ->
  all (fun kv => plain_val (fst kv) /\ plain_val (snd kv)) l0 ->
  forall l b prev s rest, view k b prev (flat_map (fun kv => 44 :: vtext J (fst kv) ++ 44 :: vtext J (snd kv)) l0 ++ s) rest ->
  delim (s ++ rest) ->
  exists b' prev', rdm false (jsonR J) (map (fun kv => (canon (fst kv), canon (snd kv))) l0) (b, InList :: l) (b', InList :: l) /\
    view k b' prev' s rest.
Proof.
  intros kt vt l0 G. induction G as [|[x y] l0 [Gx Gy] G IH]; intros W P l b prev s rest V D.
  - exists b, prev. split; [constructor|exact V].
  - destruct W as [[[Wxt Wx] [Wyt Wy]] W]. destruct P as [[Px Py] P]. cbn [map fst snd] in *.
    set (R := flat_map (fun kv => 44 :: vtext J (fst kv) ++ 44 :: vtext J (snd kv)) l0) in *.
    assert (D1 : delim ((R ++ s) ++ rest)).
    { unfold R. destruct l0; cbn; [exact D|tauto]. }
    destruct (Gx Wx Px InList l eq_refl b prev (44 :: vtext J y ++ R ++ s) rest) as (b1 & p1 & E1 & V1).
    { cbn [flat_map app sep fst snd] in V. fold R in V. cbn [sep app].
      repeat (rewrite <- !app_assoc in V; cbn [app] in V). exact V. }
    { apply follows_delim. cbn; tauto. }
    cbn [after_value] in E1.
    destruct (Gy Wy Py InList l eq_refl b1 p1 (R ++ s) rest) as (b2 & p2 & E2 & V2).
    { cbn [sep app]. exact V1. }
    { now apply follows_delim. }
    cbn [after_value] in E2.
    destruct (IH W P l b2 p2 s rest V2 D) as (b3 & p3 & E3 & V3).
    exists b3, p3. split; [|assumption]. econstructor; eassumption.
Qed.

Definition fields_text (c : ctx) (fs : list (Z * tval)) : bytes :=
  match fs with [] => [] | _ => sep c ++ tl (flat_map (fun f => 44 :: field_text J f) fs) end.

Lemma FieldBegin_view : forall c id t b prev s rest l, is_key c = true -> (c = ObjFirst -> prev = 123) ->
  in_s 16 id -> wire_type t -> t <> I16 ->
  view k b prev (sep c ++ quoted (FormatInt id) ++ [58; 123] ++ type_text t ++ s) rest -> nows (s ++ rest) ->
  exists b', jReadFieldBegin J (b, c :: l) = Ok (([], t, id), None, (b', NextValue :: NextValue :: l)) /\ view k b' 34 s rest.
Proof.
  intros c id t b prev s rest l K Hp Hid W N16 V N. unfold jReadFieldBegin. cbn [fst].
  assert (U : exists x u, b_un b = x :: u /\ (x =? 125) || (x =? 93) = false).
  { destruct c; try discriminate K; cbn [sep app quoted] in V.
    - rewrite Hp in V by reflexivity. destruct (tight_un _ _ _ _ _ _ Kl V (tight_brace _)) as [u U]. exists 34, u. auto.
    - destruct (tight_un _ _ _ _ _ _ Kl V (tight_comma _)) as [u U]. exists 44, u. auto. }
  destruct U as (x & u & -> & ->). unfold ReadI16.
  assert (H64 : in_s 64 id) by (apply (in_s_64 16); [lia|assumption]).
  destruct (rconv_view (wraps 16) c id b prev ([58; 123] ++ type_text t ++ s) rest l (rdy _ _) H64) as (b1 & p1 & -> & V1).
  { now apply wraps_id. }
  { unfold key_text. now rewrite K. }
  { cbn; tauto. }
  replace (after_value c) with NextValue by (destruct c; try discriminate K; reflexivity).
  cbn [obind].
  destruct (ObjectStart_view NextValue k b1 p1 (type_text t ++ s) rest l (rdy _ _) V1) as (b2 & -> & V2). cbn [obind].
  destruct (ReadString_type ObjFirst t k b2 123 s rest (NextValue :: l) (rdy _ _) V2 N) as (b3 & -> & V3).
  cbn [obind after_value]. rewrite type_round by assumption. eauto.
Qed.

Lemma vtype_wire : forall v, wire_type (vtype v).
Proof. intros []; cbn; unfold wire_type; cbn; tauto. Qed.

Lemma good_fields : forall fs, Forall (fun f => good (snd f)) fs ->
  all (fun f => in_s 16 (fst f) /\ wf (snd f)) fs -> all (fun f => vtype (snd f) <> I16 /\ plain_val (snd f)) fs ->
  forall c l b prev s rest, is_key c = true -> (c = ObjFirst -> prev = 123) ->
  view k b prev (fields_text c fs ++ 125 :: s) rest ->
  exists b' prev' c', is_key c' = true /\
    rdf false (jsonR J) (map (fun f => (fst f, canon (snd f))) fs) (b, c :: l) (b', c' :: l) /\
    view k b' prev' (125 :: s) rest.
Proof.
  intros fs G. induction G as [|[id v] fs Gv G IH]; intros W P c l b prev s rest K Hp V.
  - exists b, prev, c. split; [assumption|]. split; [|exact V].
    apply rdf_nil with (-1). change (rFieldBegin (jsonR J)) with (jReadFieldBegin J). unfold jReadFieldBegin. cbn [fst].
    cbn [fields_text app] in V. destruct (b_un b) as [|x u] eqn:U; [reflexivity|].
    destruct (un_head _ _ _ _ _ _ V) as [u' U']; [congruence|]. rewrite U' in U. injection U as <- _. reflexivity.
  - destruct W as [[Wi Wv] W]. destruct P as [[P16 Pv] P]. cbn [fold_right fst snd] in *.
    set (rest1 := fields_text NextKey fs ++ 125 :: s).
    assert (V1 : view k b prev (sep c ++ quoted (FormatInt id) ++ [58; 123] ++ type_text (vtype v) ++
                                ([58] ++ vtext J v ++ [125] ++ rest1)) rest).
    { unfold rest1. cbn [fields_text flat_map tl app] in V. unfold field_text at 1 in V. cbn [fst snd] in V.
      eapply view_eq; [exact V|]. rewrite <- !app_assoc. do 7 f_equal.
      destruct fs; [reflexivity|]. cbn [fields_text flat_map tl app sep]. now rewrite <- app_assoc. }
    destruct (FieldBegin_view c id (vtype v) b prev _ rest l K Hp Wi (vtype_wire v) P16 V1 eq_refl) as (b1 & E1 & V2).
    assert (Hd1 : delim (([125] ++ rest1) ++ rest)) by (cbn; tauto).
    destruct (Gv Wv Pv NextValue (NextValue :: l) eq_refl b1 34 ([125] ++ rest1) rest) as (b2 & p2 & E2 & V3).
    { cbn [sep]. rewrite <- app_assoc. exact V2. }
    { now apply follows_delim. }
    cbn [after_value] in E2.
    assert (N3 : nows (rest1 ++ rest)).
    { unfold rest1. destruct fs; reflexivity. }
    destruct (end_view is_key 125 NextValue NextKey k b2 p2 rest1 rest l eq_refl eq_refl ltac:(lia) V3 N3) as (b3 & E3 & V4).
    cbn [after_value] in E3.
    destruct (IH W P NextKey l b3 125 s rest eq_refl ltac:(discriminate) V4) as (b4 & p4 & c4 & K4 & E4 & V5).
    exists b4, p4, c4. split; [assumption|]. split; [|assumption].
    cbn [map fst snd]. rewrite <- vtype_canon in E1. eapply rdf_cons; [exact E1|exact E2|exact E3|exact E4].
Qed.

Lemma all_each : forall A (P : A -> Prop) l, all P l -> forall x, In x l -> P x.
Proof. induction l as [|a l IH]; cbn; [tauto|]. intros [H1 H2] x [->|Hx]; auto. Qed.
Lemma canon_in : forall et l0, all (fun x => vtype x = et /\ wf x) l0 -> forall v, In v (map canon l0) -> vtype v = et.
Proof.
  intros et l0 A v Hv. apply in_map_iff in Hv. destruct Hv as (u & <- & Hu). rewrite vtype_canon. exact (proj1 (all_each _ _ _ A _ Hu)).
Qed.

Theorem rd_val_good : forall v, good v.
Proof.
  intros v. pattern v. apply tval_ind'; clear v; unfold good;
    [intros b0|intros z|intros z|intros z|intros z|intros z|intros s0|intros et l0 F|intros et l0 F|intros kt vt l0 F|intros fs F];
    intros W P c l K; intros b prev s rest V D; cbn [vtext follows canon plain_val] in *.
  - rewrite <- app_assoc in V.
    destruct (ReadBool_view c b0 k b prev s rest l (rdy _ _) V D) as (b' & p' & E & V').
    exists b', p'. split; [now apply rd_bool|assumption].
  - rewrite <- app_assoc in V. assert (in_s 64 z) by (cbn in W; unfold in_u, in_s in *; lia).
    destruct (rconv_view (wrapu 8) c z b prev s rest l (rdy _ _)) as (b' & p' & E & V'); auto.
    { unfold wrapu. cbn in W. unfold in_u in W. apply Z.mod_small. lia. }
    { unfold key_text. now rewrite K. }
    exists b', p'. split; [now apply rd_byte|assumption].
  - rewrite <- app_assoc in V. assert (in_s 64 z) by (apply (in_s_64 16); [lia|exact W]).
    destruct (rconv_view (wraps 16) c z b prev s rest l (rdy _ _)) as (b' & p' & E & V'); auto.
    { now apply wraps_id. }
    { unfold key_text. now rewrite K. }
    exists b', p'. split; [now apply rd_i16|assumption].
  - rewrite <- app_assoc in V. assert (in_s 64 z) by (apply (in_s_64 32); [lia|exact W]).
    destruct (rconv_view (wraps 32) c z b prev s rest l (rdy _ _)) as (b' & p' & E & V'); auto.
    { now apply wraps_id. }
    { unfold key_text. now rewrite K. }
    exists b', p'. split; [now apply rd_i32|assumption].
  - rewrite <- app_assoc in V.
    destruct (ReadI64_view c z b prev s rest l (rdy _ _) W) as (b' & p' & E & V'); auto.
    { unfold key_text. now rewrite K. }
    exists b', p'. split; [now apply rd_i64|assumption].
  - rewrite <- app_assoc in V.
    assert (G : exists v b' p', (0 = 0 /\ v = if f64_is_nan z then GO_NAN else z) /\
       ReadDouble J (b, c :: l) = Ok (v, None, (b', after_value c :: l)) /\ view k b' p' s rest).
    { unfold ReadDouble, double_text in *.
      assert (Word : forall w, (w = GO_NAN \/ w = INF \/ w = NEG_INF) -> nows (s ++ rest) ->
                view k b prev (sep c ++ word_text w ++ s) rest -> exists b' p',
                ParseNum J snd (b, c :: l) = Ok (w, None, (b', after_value c :: l)) /\ view k b' p' s rest).
      { intros w Hw N Vw.
        apply (ParseNum_gen J snd c (word_text w) (0, w)) with prev; [apply rdy|assumption|reflexivity|cbn; lia|assumption|].
        intros. apply readNumeric_word with prev0; [exact Kl|assumption..]. }
      destruct (f64_is_nan z) eqn:En.
      { exists GO_NAN. cbn in D. destruct (Word GO_NAN) as (b' & p' & E & V'); auto. exists b', p'. auto. }
      destruct (Z.eqb_spec z INF) as [->|Ni].
      { exists INF. cbn in D. destruct (Word INF) as (b' & p' & E & V'); auto. exists b', p'. auto. }
      destruct (Z.eqb_spec z NEG_INF) as [->|Nn].
      { exists NEG_INF. cbn in D. destruct (Word NEG_INF) as (b' & p' & E & V'); auto. exists b', p'. auto. }
      cbn in D. unfold float_ok in P. destruct P as [P|[P|[P|[P1 P2]]]]; [congruence..|].
      destruct (ParseNum_view J snd c false (x_fmt64 (j_ext J) z) k b prev s rest l (rdy _ _) V (number_numeric _ P1) D)
        as (b' & p' & E & V').
      exists z, b', p'. split; [auto|]. split; [|assumption]. rewrite E. unfold parsed. cbn [snd]. now rewrite P2. }
    destruct G as (v & b' & p' & [_ Hv] & E & V'). exists b', p'. split; [|assumption]. rewrite <- Hv. now apply rd_double.
  - rewrite <- app_assoc in V. destruct P as [(cs & Sc & ->) Fi].
    destruct (ReadString_view (j_style J) c cs k b prev s rest l Sc Fi (rdy _ _) V D) as (b' & E & V').
    exists b', 34. split; [|assumption]. apply rd_str; [exact E|discriminate].
  - destruct W as (Wt & Wl & Wa).
    set (items := commas (map (vtext J) l0)) in *.
    destruct (ElemList_view c et (Z.of_nat (length l0)) b prev (items ++ [93] ++ s) rest l) as (b1 & p1 & E1 & V1).
    { now apply wire_u8. }
    { unfold in_s. lia. }
    { repeat (rewrite <- !app_assoc in V; cbn [app] in V). exact V. }
    { unfold items, commas. destruct l0; cbn; tauto. }
    destruct (good_items et l0 F Wa P (c :: l) b1 p1 ([93] ++ s) rest V1) as (b2 & p2 & E2 & V2); [cbn; tauto|].
    destruct (end_view (fun c => match c with InList => true | _ => false end) 93 c InList k b2 p2 s rest l
                eq_refl eq_refl ltac:(lia) V2 D) as (b3 & E3 & V3).
    exists b3, 93. split; [|assumption].
    eapply rd_list; [rewrite map_length; exact E1|now apply canon_in|exact E2|exact E3].
  - destruct W as (Wt & Wl & Wa).
    set (items := commas (map (vtext J) l0)) in *.
    destruct (ElemList_view c et (Z.of_nat (length l0)) b prev (items ++ [93] ++ s) rest l) as (b1 & p1 & E1 & V1).
    { now apply wire_u8. }
    { unfold in_s. lia. }
    { repeat (rewrite <- !app_assoc in V; cbn [app] in V). exact V. }
    { unfold items, commas. destruct l0; cbn; tauto. }
    destruct (good_items et l0 F Wa P (c :: l) b1 p1 ([93] ++ s) rest V1) as (b2 & p2 & E2 & V2); [cbn; tauto|].
    destruct (end_view (fun c => match c with InList => true | _ => false end) 93 c InList k b2 p2 s rest l
                eq_refl eq_refl ltac:(lia) V2 D) as (b3 & E3 & V3).
    exists b3, 93. split; [|assumption].
    eapply rd_set; [rewrite map_length; exact E1|now apply canon_in|exact E2|exact E3].
  - destruct W as (Wk & Wv & Wl & Wa). destruct P as (Pk & Pv & P).
    set (items := flat_map (fun kv => 44 :: vtext J (fst kv) ++ 44 :: vtext J (snd kv)) l0) in *.
    destruct (MapBegin_view c kt vt (Z.of_nat (length l0)) b prev (items ++ [93] ++ s) rest l Wk Wv Pk Pv)
      as (b1 & p1 & E1 & V1).
    { unfold in_s. lia. }
    { repeat (rewrite <- !app_assoc in V; cbn [app] in V). exact V. }
    { unfold items. destruct l0; cbn; tauto. }
    destruct (good_pairs kt vt l0 F Wa P (c :: l) b1 p1 ([93] ++ s) rest V1) as (b2 & p2 & E2 & V2); [cbn; tauto|].
    destruct (end_view (fun c => match c with InList => true | _ => false end) 93 c InList k b2 p2 s rest l
                eq_refl eq_refl ltac:(lia) V2 D) as (b3 & E3 & V3).
    exists b3, 93. split; [|assumption].
    eapply rd_map; [rewrite map_length; exact E1| |exact E2|exact E3].
    intros x y Hxy. apply in_map_iff in Hxy. destruct Hxy as ([u v] & E & Hu). cbn [fst snd] in E. injection E as <- <-.
    destruct (all_each _ _ _ Wa _ Hu) as [[Wx _] [Wy _]]. rewrite !vtype_canon. auto.
  - set (items := fields_text ObjFirst fs) in *.
    destruct (ObjectStart_view c k b prev (items ++ 125 :: s) rest l (rdy _ _)) as (b1 & E1 & V1).
    { change (view k b prev ((sep c ++ vtext J (VStruct fs)) ++ s) rest) in V.
      replace ((sep c ++ vtext J (VStruct fs)) ++ s) with (sep c ++ 123 :: items ++ 125 :: s) in V; [exact V|].
      rewrite <- app_assoc. f_equal. cbn [vtext app]. f_equal. rewrite <- app_assoc. cbn [app].
      unfold items, fields_text. destruct fs; reflexivity. }
    destruct (good_fields fs F W P ObjFirst (c :: l) b1 123 s rest eq_refl ltac:(auto) V1)
      as (b2 & p2 & c2 & K2 & E2 & V2).
    destruct (end_view is_key 125 c c2 k b2 p2 s rest l K2 eq_refl ltac:(lia) V2 D) as (b3 & E3 & V3).
    exists b3, 125. split; [|assumption].
    eapply rd_struct; [|exact E2|exact E3]. change (rStructBegin (jsonR J)) with ReadStructBegin.
    unfold ReadStructBegin. now rewrite E1.
Qed.
Theorem read_val_good : forall v, wf v -> plain_val v -> forall c l f, is_key c = false -> (need v <= f)%nat ->
  forall b prev s rest, view k b prev ((sep c ++ vtext J v) ++ s) rest -> follows v (s ++ rest) ->
  exists b' prev', read_val (jsonR J) f (vtype v) (b, c :: l) = Ok (inl (canon v), (b', after_value c :: l)) /\
    view k b' prev' s rest.
Proof.
  intros v W P c l f K L b prev s rest V D.
  destruct (rd_val_good v W P c l K b prev s rest V D) as (b' & p' & R & V'). exists b', p'. split; [|assumption].
  rewrite <- vtype_canon. eapply rd_read_val; [exact R|]. now rewrite need_canon.
Qed.
End Val.
