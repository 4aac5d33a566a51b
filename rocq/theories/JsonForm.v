(** The JSON protocols write JSON. *)
From Coq Require Import ZArith List Bool Lia String Ascii.
From Coq Require Import ZifyBool ZifyNat.
From Verif Require Import Base Arith Errors Transport Proto Values Strconv JsonText JsonTextProofs F64 GoVal Names
  BufRead Json JsonSpec JsonWrite.
Import ListNotations.
Local Open Scope list_scope.
Local Notation length := List.length.
Open Scope Z_scope.
Ltac Zify.zify_post_hook ::= Z.div_mod_to_equations.

(** ** Call sequences *)

(** A call to the writing half of the TProtocol interface. *)
Inductive wcall : Type :=
| CMessageBegin (name : bytes) (t id : Z) | CMessageEnd
| CStructBegin (name : bytes) | CStructEnd
| CFieldBegin (name : bytes) (t id : Z) | CFieldEnd | CFieldStop
| CMapBegin (kt vt n : Z) | CMapEnd
| CListBegin (et n : Z) | CListEnd
| CSetBegin (et n : Z) | CSetEnd
| CBool (b : bool) | CByte (z : Z) | CI16 (z : Z) | CI32 (z : Z) | CI64 (z : Z) | CDouble (d : Z)
| CString (s : bytes) | CBinary (s : bytes).
Definition perform {S} (W : wproto S) (c : wcall) : wop S :=
  match c with
  | CMessageBegin name t id => wMessageBegin W name t id
  | CMessageEnd => wMessageEnd W
  | CStructBegin name => wStructBegin W name
  | CStructEnd => wStructEnd W
  | CFieldBegin name t id => wFieldBegin W name t id
  | CFieldEnd => wFieldEnd W
  | CFieldStop => wFieldStop W
  | CMapBegin kt vt n => wMapBegin W kt vt n
  | CMapEnd => wMapEnd W
  | CListBegin et n => wListBegin W et n
  | CListEnd => wListEnd W
  | CSetBegin et n => wSetBegin W et n
  | CSetEnd => wSetEnd W
  | CBool b => wBool W b
  | CByte z => wByte W z
  | CI16 z => wI16 W z
  | CI32 z => wI32 W z
  | CI64 z => wI64 W z
  | CDouble d => wDouble W d
  | CString s => wString W s
  | CBinary s => wBinary W s
  end.
Definition performs {S} (W : wproto S) (cs : list wcall) : wop S := wseqs (map (perform W) cs).

(** Properly nested: every Begin has its End, a field holds one value; how many elements a container
    announces does not matter. *)
Definition one_value (c : wcall) : Prop :=
  match c with
  | CBool _ | CByte _ | CI16 _ | CI32 _ | CI64 _ | CDouble _ | CString _ | CBinary _ => True
  | _ => False
  end.
Inductive value : list wcall -> Prop :=
| v_one c : one_value c -> value [c]
| v_list et n cs : values cs -> value (CListBegin et n :: cs ++ [CListEnd])
| v_set et n cs : values cs -> value (CSetBegin et n :: cs ++ [CSetEnd])
| v_map kt vt n cs : values cs -> value (CMapBegin kt vt n :: cs ++ [CMapEnd])
| v_struct name cs : fields cs -> value (CStructBegin name :: cs ++ [CFieldStop; CStructEnd])
with values : list wcall -> Prop :=
| vs_nil : values []
| vs_cons v cs : value v -> values cs -> values (v ++ cs)
with fields : list wcall -> Prop :=
| fs_nil : fields []
| fs_cons name t id v cs : value v -> fields cs -> fields (CFieldBegin name t id :: v ++ CFieldEnd :: cs).
Scheme value_min := Minimality for value Sort Prop
with values_min := Minimality for values Sort Prop
with fields_min := Minimality for fields Sort Prop.
Combined Scheme value_all from value_min, values_min, fields_min.
(** A value, or a message. *)
Inductive document : list wcall -> Prop :=
| d_value cs : value cs -> document cs
| d_message name t id cs : values cs -> document (CMessageBegin name t id :: cs ++ [CMessageEnd]).

(** The arguments are what Go's types can hold, strings are UTF-8 unless encoding/json replaces what
    is not, and FormatFloat gives JSON numbers. *)
Definition finite (d : Z) : Prop := f64_is_nan d = false /\ d <> INF /\ d <> NEG_INF.
Definition textual (st : jstyle) (s : bytes) : Prop :=
  is_bytes s /\ (js_lossy st = true \/ exists cs, Forall scalar cs /\ s = utf8 cs).
Definition args_ok (J : jenv) (c : wcall) : Prop :=
  match c with
  | CMessageBegin name t id => textual (j_style J) name /\ in_s 32 id
  | CStructBegin name => True
  | CFieldBegin name t id => textual (j_style J) name /\ in_s 16 id
  | CMapBegin _ _ n | CListBegin _ n | CSetBegin _ n => in_s 64 n
  | CByte z => in_u 8 z
  | CI16 z => in_s 16 z
  | CI32 z => in_s 32 z
  | CI64 z => in_s 64 z
  | CDouble d => in_u 64 d /\ (finite d -> number (x_fmt64 (j_ext J) d))
  | CString s => textual (j_style J) s
  | CBinary s => is_bytes s
  | _ => True
  end.

(** ** Scalars *)
Lemma dec_digits_lead : forall f n acc, 0 < n -> n < 10 ^ Z.of_nat f ->
  exists c t, dec_digits f n acc = c :: t /\ c <> 48.
Proof.
  induction f as [|f IH]; intros n acc H L; [cbn in L; lia|]. cbn [dec_digits].
  destruct (Z.eqb_spec (n / 10) 0) as [E|E].
  - exists (48 + n mod 10), acc. split; [reflexivity|lia].
  - rewrite Nat2Z.inj_succ, Z.pow_succ_r in L by lia. apply IH; lia.
Qed.
Lemma format_uint_int : forall n, 0 <= n < 2 ^ 64 -> int_part (format_uint n).
Proof.
  intros n H. destruct (format_uint_spec n H) as (N & F & _).
  destruct (Z.eq_dec n 0) as [->|Nz]; [now left|]. right. split; [split; assumption|].
  unfold format_uint. destruct (dec_digits_lead 20 n []) as (c & t & E & Nc); [lia| |rewrite E; exact Nc].
  eapply Z.lt_trans; [apply H|reflexivity].
Qed.
Lemma number_format : forall z, in_s 64 z -> number (FormatInt z).
Proof.
  intros z H. unfold in_s in H. change (2 ^ (64 - 1)) with (2 ^ 63) in H.
  assert (2 ^ 63 < 2 ^ 64) by reflexivity. unfold FormatInt, number.
  destruct (Z.ltb_spec z 0).
  - exists [45], (format_uint (- z)), [], []. repeat split; [now right|apply format_uint_int; lia|now left|now left|].
    now rewrite !app_nil_r.
  - exists [], (format_uint z), [], []. repeat split; [now left|apply format_uint_int; lia|now left|now left|].
    now rewrite !app_nil_r.
Qed.

Lemma hexdig_digit : forall d, 0 <= d < 16 -> hexdig (hex_digit d).
Proof. intros d H. unfold hexdig, hex_digit. destruct (Z.ltb_spec d 10); lia. Qed.
Lemma jchars_app : forall a b, jchars a -> jchars b -> jchars (a ++ b).
Proof.
  intros a b Ha Hb. induction Ha; cbn [app]; [assumption| | |].
  - rewrite <- app_assoc. now apply jc_plain.
  - now apply jc_esc.
  - now apply jc_u.
Qed.
Lemma jchars_u : forall r, jchars (u_escape r).
Proof. intros r. unfold u_escape. apply jc_u; try (apply hexdig_digit; lia). constructor. Qed.
Lemma jchars_ascii : forall st c, 0 <= c < 128 -> jchars (escape_ascii st c).
Proof.
  intros st c H. unfold escape_ascii. destruct ((c =? 34) || (c =? 92)) eqn:Q.
  { apply jc_esc; [|constructor]. cbn. lia. }
  assert (P : 32 <= c -> jchars [c]).
  { intros L. assert (Sc : scalar c) by (unfold scalar; lia).
    pose proof (jc_plain c [] Sc L ltac:(lia) ltac:(lia) jc_nil) as X. rewrite app_nil_r in X.
    destruct (utf8_encode_cases c Sc) as [[R E]|[[R _]|[[R _]|[R _]]]]; try lia. now rewrite E in X. }
  destruct (Z.ltb_spec c 32).
  - unfold short_escape.
    repeat match goal with
    | |- context [if ?b then _ else _] => destruct b
    end; try apply jchars_u; apply jc_esc; try constructor; cbn; tauto.
  - destruct (_ && _); [apply jchars_u|apply P; lia].
Qed.
Lemma jchars_rune : forall st r, scalar r -> 128 <= r -> jchars (escape_rune st r).
Proof.
  intros st r H L. unfold escape_rune. destruct (_ && _); [apply jchars_u|].
  rewrite <- (app_nil_r (utf8_encode r)). apply jc_plain; [assumption|lia|lia|lia|constructor].
Qed.
Lemma decode_scalar : forall s r n, is_bytes s -> utf8_decode s = (r, n) -> (1 < n)%nat -> scalar r /\ 128 <= r.
Proof.
  intros s r n B E Hn. destruct s as [|a s]; [cbn in E; injection E as <- <-; lia|].
  cbn [utf8_decode] in E. inversion B as [|? ? Ha B1]; subst. unfold is_byte, scalar, cont in *.
  destruct (Z.ltb_spec a 0x80); [injection E as <- <-; lia|].
  destruct (Z.ltb_spec a 0xC2); [injection E as <- <-; lia|].
  destruct (Z.ltb_spec a 0xE0).
  { destruct s as [|b s]; [injection E as <- <-; lia|].
    destruct (_ && _) eqn:C; injection E as <- <-; lia. }
  destruct (Z.ltb_spec a 0xF0).
  { destruct s as [|b [|c s]]; try (injection E as <- <-; lia).
    destruct (_ && _) eqn:C; injection E as <- <-; lia. }
  destruct (Z.ltb_spec a 0xF8); [|injection E as <- <-; lia].
  destruct s as [|b [|c [|d s]]]; try (injection E as <- <-; lia).
  destruct (_ && _) eqn:C; injection E as <- <-; lia.
Qed.
Lemma decode_one : forall s r n, s <> [] -> utf8_decode s = (r, n) -> (n <= 1)%nat -> 128 <= hd 0 s ->
  r = 0xFFFD /\ n = 1%nat.
Proof.
  intros s r n N E Hn Ha. destruct s as [|a s]; [congruence|]. cbn [hd] in Ha. cbn [utf8_decode] in E.
  destruct (Z.ltb_spec a 0x80); [lia|].
  destruct (Z.ltb_spec a 0xC2); [injection E as <- <-; auto|].
  destruct (Z.ltb_spec a 0xE0).
  { destruct s as [|b s]; [injection E as <- <-; auto|]. destruct (cont b); injection E as <- <-; auto; lia. }
  destruct (Z.ltb_spec a 0xF0).
  { destruct s as [|b [|c s]]; try (injection E as <- <-; auto).
    destruct (_ && _) in E; injection E as <- <-; auto; lia. }
  destruct (Z.ltb_spec a 0xF8); [|injection E as <- <-; auto].
  destruct s as [|b [|c [|d s]]]; try (injection E as <- <-; auto).
  destruct (_ && _) in E; injection E as <- <-; auto; lia.
Qed.
Lemma marshal_jchars : forall f st s b, is_bytes s -> marshal_body f st s = Some b -> jchars b.
Proof.
  induction f as [|f IH]; intros st s b B E; [injection E as <-; constructor|]. cbn [marshal_body] in E.
  destruct s as [|c s]; [injection E as <-; constructor|].
  inversion B as [|? ? Hc B1]; subst. unfold is_byte in Hc.
  destruct (Z.ltb_spec c 0x80).
  { destruct (marshal_body f st s) as [t|] eqn:M; [|discriminate]. 
    assert (b = escape_ascii st c ++ t) as -> by (cbn [option_map] in E; congruence).
    apply jchars_app; [apply jchars_ascii; lia|eapply IH; eassumption]. }
  destruct (utf8_decode (c :: s)) as [r n] eqn:D.
  destruct ((r =? 0xFFFD) && (n =? 1)%nat) eqn:Q.
  { destruct (js_lossy st); [|discriminate]. destruct (marshal_body f st s) as [t|] eqn:M; [|discriminate].
    assert (b = u_escape 0xFFFD ++ t) as -> by (cbn [option_map] in E; congruence). apply jchars_app; [apply jchars_u|eapply IH; eassumption]. }
  destruct (marshal_body f st (skipn n (c :: s))) as [t|] eqn:M; [|discriminate].
  assert (b = escape_rune st r ++ t) as -> by (cbn [option_map] in E; congruence).
  assert (Hn : (1 < n)%nat).
  { destruct (Nat.ltb_spec 1 n); [assumption|]. destruct (decode_one (c :: s) r n ltac:(discriminate) D) as [-> ->]; [lia|cbn; lia|].
    cbn in Q. discriminate Q. }
  destruct (decode_scalar _ _ _ B D Hn) as [Sc Hr].
  apply jchars_app; [now apply jchars_rune|]. eapply IH; [|exact M].
  unfold is_bytes in *. rewrite <- (firstn_skipn n (c :: s)) in B. apply Forall_app in B. apply B.
Qed.
Lemma marshal_lossy : forall f st s, js_lossy st = true -> exists b, marshal_body f st s = Some b.
Proof.
  induction f as [|f IH]; intros st s L; [eexists; reflexivity|]. cbn [marshal_body].
  destruct s as [|c s]; [eexists; reflexivity|].
  destruct (c <? 0x80); [destruct (IH st s L) as [b ->]; eexists; reflexivity|].
  destruct (utf8_decode (c :: s)) as [r n]. rewrite L.
  destruct (_ && _); [destruct (IH st s L) as [b ->]|destruct (IH st (skipn n (c :: s)) L) as [b ->]]; eexists; reflexivity.
Qed.
Lemma quote_jstring : forall st s, textual st s -> jstring (json_quote st s).
Proof.
  intros st s [B [L|(cs & F & ->)]].
  - unfold json_quote. destruct (marshal_lossy (length s) st s L) as [b E]. rewrite E.
    exists b. split; [eapply marshal_jchars; eassumption|reflexivity].
  - unfold json_quote. rewrite marshal_utf8 by (assumption || lia).
    eexists. split; [|reflexivity]. eapply marshal_jchars; [exact B|]. apply marshal_utf8; [assumption|reflexivity].
Qed.
Lemma plain_jchars : forall s, Forall plain s -> jchars s.
Proof.
  intros s F. induction F as [|c s H F IH]; [constructor|].
  change (c :: s) with ([c] ++ s). apply jchars_app; [|assumption].
  pose proof (jchars_ascii (MkStyle (fun _ => false) (fun _ => false) false) c) as X. unfold plain in H.
  specialize (X ltac:(lia)). unfold escape_ascii in X. cbn [js_esc] in X. rewrite andb_false_r in X.
  replace ((c =? 34) || (c =? 92)) with false in X by lia. replace (c <? 32) with false in X by lia. exact X.
Qed.
Lemma quoted_jstring : forall s, Forall plain s -> jstring (quoted s).
Proof. intros s F. exists s. split; [now apply plain_jchars|reflexivity]. Qed.
Lemma b64_plain : forall s, is_bytes s -> Forall plain (b64_encode s).
Proof.
  assert (C : forall d, 0 <= d < 64 -> plain (b64_char d)).
  { intros d H. unfold plain, b64_char.
    repeat match goal with |- context [if ?c then _ else _] => destruct c eqn:? end; lia. }
  intros s. apply (bytes3_ind (fun s => is_bytes s -> Forall plain (b64_encode s))).
  - constructor.
  - intros a F. inversion F as [|? ? Ha F']; subst. unfold is_byte in *. cbn [b64_encode].
    repeat (constructor; [(apply C; lia) || (unfold plain; lia)|]). constructor.
  - intros a b F. inversion F as [|? ? Ha F']; inversion F' as [|? ? Hb F'']; subst. unfold is_byte in *. cbn [b64_encode].
    repeat (constructor; [(apply C; lia) || (unfold plain; lia)|]). constructor.
  - intros a b c t IH F. inversion F as [|? ? Ha F']; inversion F' as [|? ? Hb F'']; inversion F''; subst.
    unfold is_byte in *. cbn [b64_encode]. repeat (constructor; [(apply C; lia)|]). now apply IH.
Qed.

(** ** Containers *)
Lemma around_one : forall c, around c [c].
Proof. intros c. exists [], []. repeat split; constructor. Qed.
Lemma elements_commas : forall ts t0, json t0 -> Forall json ts -> elements (t0 ++ commas ts).
Proof.
  induction ts as [|t ts IH]; intros t0 H F.
  - cbn. rewrite app_nil_r. now constructor.
  - inversion F; subst. unfold commas. cbn [flat_map].
    change ((44 :: t) ++ flat_map (fun t => 44 :: t) ts) with ([44] ++ t ++ commas ts).
    apply el_more; [assumption|apply around_one|now apply IH].
Qed.
Lemma json_list : forall m, elements m -> json ([91] ++ m ++ [93]).
Proof. intros m H. apply json_array; [apply around_one|apply around_one|assumption]. Qed.
Definition member (m : bytes) : Prop := exists n x, jstring n /\ json x /\ m = n ++ [58] ++ x.
Lemma members_commas : forall ms m0, member m0 -> Forall member ms -> members (m0 ++ commas ms).
Proof.
  induction ms as [|m ms IH]; intros m0 (n & x & Hn & Hx & ->) F.
  - cbn [commas flat_map]. rewrite app_nil_r. apply mb_one; [assumption|apply around_one|assumption].
  - inversion F; subst. unfold commas. cbn [flat_map].
    change ((44 :: m) ++ flat_map (fun t => 44 :: t) ms) with ([44] ++ m ++ commas ms).
    rewrite <- !app_assoc. apply mb_more; [assumption|apply around_one|assumption|apply around_one|now apply IH].
Qed.
Lemma json_object_of : forall ms, Forall member ms ->
  json ([123] ++ (match ms with [] => [] | m :: r => m ++ commas r end) ++ [125]).
Proof.
  intros [|m ms] F.
  - apply (json_empty_object [123] [125]); apply around_one.
  - inversion F; subst. apply json_object; [apply around_one|apply around_one|now apply members_commas].
Qed.

Section Form.
Variable J : jenv.
Variable W : wproto jw.

Definition emits_val (m : wop jw) (t : bytes) : Prop :=
  forall c l, is_key c = false -> emits m (c :: l) (sep c ++ t) (after_value c :: l).
Definition opens (m : wop jw) : Prop :=
  exists t0 ts, json t0 /\ Forall json ts /\
  forall c l, emits m (c :: l) (sep c ++ [91] ++ t0 ++ commas ts) (InList :: c :: l).
Definition closes (m : wop jw) : Prop := forall c l, emits m (InList :: c :: l) [93] (after_value c :: l).

Hypothesis Hone : forall c, one_value c -> args_ok J c -> exists t, json t /\ emits_val (perform W c) t.
Hypothesis Hlist : forall et n, in_s 64 n -> opens (wListBegin W et n).
Hypothesis Hlist' : closes (wListEnd W).
Hypothesis Hset : forall et n, in_s 64 n -> opens (wSetBegin W et n).
Hypothesis Hset' : closes (wSetEnd W).
Hypothesis Hmap : forall kt vt n, in_s 64 n -> opens (wMapBegin W kt vt n).
Hypothesis Hmap' : closes (wMapEnd W).
Hypothesis Hmsg : forall name t id, textual (j_style J) name -> in_s 32 id -> opens (wMessageBegin W name t id).
Hypothesis Hmsg' : closes (wMessageEnd W).
Hypothesis Hstruct : forall name c l, emits (wStructBegin W name) (c :: l) (sep c ++ [123]) (ObjFirst :: c :: l).
Hypothesis Hstop : forall l, emits (wFieldStop W) l [] l.
Hypothesis Hstruct' : forall d c l, emits (wStructEnd W) (d :: c :: l) [125] (after_value c :: l).
Hypothesis Hfield : forall name t id v tv, textual (j_style J) name -> in_s 16 id -> json tv -> emits_val v tv ->
  exists m, member m /\
  forall c l, is_key c = true ->
  emits (wFieldBegin W name t id >>> v >>> wFieldEnd W) (c :: l) (sep c ++ m) (NextKey :: l).

Lemma emits_app : forall a b l t l1 t2 l2, emits (performs W a) l t l1 -> emits (performs W b) l1 t2 l2 ->
  emits (performs W (a ++ b)) l (t ++ t2) l2.
Proof.
  unfold performs. induction a as [|x a IH]; intros b l t l1 t2 l2 Ha Hb o.
  - cbn [app map wseqs]. specialize (Ha o). cbn [map wseqs] in Ha. unfold nop in Ha. injection Ha as E1 E2.
    subst l1. assert (t = []).
    { apply (f_equal (@length Z)) in E1. rewrite app_length in E1. destruct t; [reflexivity|cbn [length] in E1; lia]. }
    subst t. cbn [app]. apply Hb.
  - cbn [app map wseqs]. specialize (Ha o). cbn [map wseqs] in Ha. unfold wseq in *.
    destruct (perform W x (MkWt o [], l)) as [[e s1]| |] eqn:E; cbn [obind] in *; try discriminate.
    destruct e as [e|]; [discriminate|].
    assert (Ap : forall a s s', wseqs (map (perform W) a) s = Ok (None, s') ->
               wseqs (map (perform W) (a ++ b)) s = wseqs (map (perform W) b) s').
    { clear. induction a as [|y a IH]; intros s s' H.
      - cbn [map wseqs] in H. unfold nop in H. injection H as <-. reflexivity.
      - cbn [app map wseqs] in *. unfold wseq in *. destruct (perform W y s) as [[e s1]| |]; cbn [obind] in *; try discriminate.
        destruct e; [discriminate|]. now apply IH. }
    rewrite (Ap _ _ _ Ha). rewrite Hb. now rewrite <- app_assoc.
Qed.
Lemma emits_one : forall c l t l', emits (perform W c) l t l' -> emits (performs W [c]) l t l'.
Proof.
  intros c l t l' H. unfold performs. cbn [map wseqs]. rewrite <- (app_nil_r t).
  eapply emits_seq; [exact H|apply emits_nop].
Qed.
Lemma emits_cons : forall c cs l t l1 t2 l2, emits (perform W c) l t l1 -> emits (performs W cs) l1 t2 l2 ->
  emits (performs W (c :: cs)) l (t ++ t2) l2.
Proof. intros. unfold performs. cbn [map wseqs]. eapply emits_seq; eassumption. Qed.

Lemma bracketed : forall cb ce cs ts, opens (perform W cb) -> closes (perform W ce) -> Forall json ts ->
  (forall l, emits (performs W cs) (InList :: l) (commas ts) (InList :: l)) ->
  exists t, json t /\ forall c l, emits (performs W (cb :: cs ++ [ce])) (c :: l) (sep c ++ t) (after_value c :: l).
Proof.
  intros cb ce cs ts (t0 & ts0 & H0 & F0 & E0) Hc F E.
  exists ([91] ++ (t0 ++ commas (ts0 ++ ts)) ++ [93]). split.
  - apply json_list, elements_commas; [assumption|]. apply Forall_app. auto.
  - intros c l. eapply emits_eq.
    + eapply emits_cons; [apply E0|]. eapply emits_app; [apply E|]. apply emits_one. apply Hc.
    + unfold commas. rewrite flat_map_app, <- !app_assoc. reflexivity.
Qed.

Theorem value_form :
  (forall cs, value cs -> Forall (args_ok J) cs -> exists t, json t /\ emits_val (performs W cs) t) /\
  (forall cs, values cs -> Forall (args_ok J) cs ->
     exists ts, Forall json ts /\ forall l, emits (performs W cs) (InList :: l) (commas ts) (InList :: l)) /\
  (forall cs, fields cs -> Forall (args_ok J) cs ->
     exists ms, Forall member ms /\ forall c l, is_key c = true -> exists c', is_key c' = true /\
     emits (performs W cs) (c :: l) (match ms with [] => [] | m :: r => sep c ++ m ++ commas r end) (c' :: l)).
Proof.
  apply value_all.
  - intros c H A. inversion A; subst. destruct (Hone c H) as (t & Jt & E); [assumption|].
    exists t. split; [assumption|]. intros c0 l K. apply emits_one. now apply E.
  - intros et n cs _ IH A. inversion A as [|? ? A1 A2]; subst. apply Forall_app in A2. destruct A2 as [A2 _].
    destruct (IH A2) as (ts & F & E).
    destruct (bracketed (CListBegin et n) CListEnd cs ts (Hlist et n A1) Hlist' F E) as (t & Jt & Et).
    exists t. split; [assumption|]. intros c l _. apply Et.
  - intros et n cs _ IH A. inversion A as [|? ? A1 A2]; subst. apply Forall_app in A2. destruct A2 as [A2 _].
    destruct (IH A2) as (ts & F & E).
    destruct (bracketed (CSetBegin et n) CSetEnd cs ts (Hset et n A1) Hset' F E) as (t & Jt & Et).
    exists t. split; [assumption|]. intros c l _. apply Et.
  - intros kt vt n cs _ IH A. inversion A as [|? ? A1 A2]; subst. apply Forall_app in A2. destruct A2 as [A2 _].
    destruct (IH A2) as (ts & F & E).
    destruct (bracketed (CMapBegin kt vt n) CMapEnd cs ts (Hmap kt vt n A1) Hmap' F E) as (t & Jt & Et).
    exists t. split; [assumption|]. intros c l _. apply Et.
  - intros name cs _ IH A. inversion A as [|? ? A1 A2]; subst. apply Forall_app in A2. destruct A2 as [A2 _].
    destruct (IH A2) as (ms & F & E).
    eexists. split; [apply (json_object_of ms F)|]. intros c l _.
    destruct (E ObjFirst (c :: l) eq_refl) as (c' & _ & E').
    eapply emits_eq.
    + eapply emits_cons; [apply Hstruct|]. eapply emits_app; [apply E'|].
      eapply emits_cons; [apply Hstop|]. apply emits_one. apply Hstruct'.
    + rewrite <- !app_assoc. destruct ms; cbn [sep app]; reflexivity.
  - intros _. exists []. split; [constructor|]. intros l. apply emits_nop.
  - intros v cs _ IHv _ IHs A. apply Forall_app in A. destruct A as [A1 A2].
    destruct (IHv A1) as (t & Jt & Et). destruct (IHs A2) as (ts & F & E).
    exists (t :: ts). split; [now constructor|]. intros l.
    eapply emits_eq; [eapply emits_app; [apply (Et InList l eq_refl)|apply E]|]. reflexivity.
  - intros _. exists []. split; [constructor|]. intros c l K. exists c. split; [assumption|apply emits_nop].
  - intros name t id v cs _ IHv _ IHs A. inversion A as [|? ? A0 A2]; subst. destruct A0 as [A1 A1'].
    apply Forall_app in A2. destruct A2 as [A2 A3]. inversion A3 as [|? ? _ A4]; subst.
    destruct (IHv A2) as (tv & Jt & Et). destruct (IHs A4) as (ms & F & E).
    destruct (Hfield name t id (performs W v) tv A1 A1' Jt Et) as (m & Mm & Em).
    exists (m :: ms). split; [now constructor|]. intros c l K.
    destruct (E NextKey l eq_refl) as (c' & K' & E'). exists c'. split; [assumption|].
    assert (G : emits (performs W (CFieldBegin name t id :: v ++ [CFieldEnd])) (c :: l) (sep c ++ m) (NextKey :: l)).
    { clear - Em K. intros o. specialize (Em c l K o). unfold performs. cbn [map wseqs perform].
      unfold wseq in *. destruct (wFieldBegin W name t id (MkWt o [], c :: l)) as [[e s1]| |]; cbn [obind] in *; try discriminate.
      destruct e as [e|]; [discriminate|].
      destruct (performs W v s1) as [[e s2]| |] eqn:Ev; cbn [obind] in Em; try discriminate.
      destruct e as [e|]; [discriminate|]. rewrite <- Em. clear Em.
      revert s1 Ev. induction v as [|y v IH]; intros s1 Ev.
      - unfold performs in Ev. cbn [map wseqs app perform] in *. unfold nop in *. injection Ev as <-.
        unfold wseq. destruct (wFieldEnd W s1) as [[e s2]| |]; cbn [obind]; try reflexivity. now destruct e.
      - unfold performs in Ev. cbn [map wseqs app] in *. unfold wseq in *.
        destruct (perform W y s1) as [[e s3]| |]; cbn [obind] in *; try discriminate.
        destruct e; [discriminate|]. now apply IH. }
    replace (CFieldBegin name t id :: v ++ CFieldEnd :: cs) with ((CFieldBegin name t id :: v ++ [CFieldEnd]) ++ cs)
      by (cbn [app]; rewrite <- app_assoc; reflexivity).
    eapply emits_eq; [eapply emits_app; [exact G|exact E']|].
    destruct ms as [|m2 ms]; [cbn [commas flat_map]; now rewrite !app_nil_r|].
    rewrite <- app_assoc. reflexivity.
Qed.

Theorem document_form : forall cs, document cs -> Forall (args_ok J) cs ->
  exists t, json t /\ forall l, emits (performs W cs) (TopLevel :: l) t (TopLevel :: l).
Proof.
  intros cs [cs' V|name t id cs' V] A.
  - destruct (proj1 value_form cs' V A) as (t & Jt & E). exists t. split; [assumption|].
    intros l. apply (E TopLevel l eq_refl).
  - inversion A as [|? ? A0 A2]; subst. destruct A0 as [A1 A1']. apply Forall_app in A2. destruct A2 as [A2 _].
    destruct (proj1 (proj2 value_form) cs' V A2) as (ts & F & E).
    destruct (bracketed (CMessageBegin name t id) CMessageEnd cs' ts (Hmsg name t id A1 A1') Hmsg' F E) as (x & Jx & Ex).
    exists x. split; [assumption|]. intros l. apply (Ex TopLevel l).
Qed.
End Form.

(** ** Both protocols *)
Section Both.
Variable J : jenv.

Lemma wrapu8_64 : forall t, in_s 64 (wrapu 8 t).
Proof. intros t. unfold wrapu, in_s. change (2 ^ 8) with 256. change (2 ^ (64 - 1)) with (2 ^ 63). lia. Qed.
Lemma json_int : forall z, in_s 64 z -> json (FormatInt z).
Proof. intros z H. now apply json_number, number_format. Qed.
Lemma ints_64 : forall z, (in_u 8 z -> in_s 64 z) /\ (in_s 16 z -> in_s 64 z) /\ (in_s 32 z -> in_s 64 z).
Proof. intros z. unfold in_u, in_s. repeat split; intros; lia. Qed.

Ltac in64 := match goal with |- in_s 64 ?z => destruct (ints_64 z) as (? & ? & ?); auto end.
Lemma form_i64 : forall z, in_s 64 z -> exists t, json t /\ emits_val (OutputI64 J z) t.
Proof.
  intros z H. exists (FormatInt z). split; [now apply json_int|]. intros c l K.
  eapply emits_eq; [apply emits_i64|]. now rewrite vtext_key.
Qed.
Lemma form_double : forall d, in_u 64 d -> (finite d -> number (x_fmt64 (j_ext J) d)) ->
  exists t, json t /\ emits_val (OutputF64 J d) t.
Proof.
  intros d H N. exists (double_text J d). split; [|intros c l K; now apply emits_f64].
  unfold double_text. destruct (f64_is_nan d) eqn:E1.
  { apply json_string, quoted_jstring. unfold plain. cbn. repeat (constructor; [lia|]). constructor. }
  destruct (Z.eqb_spec d INF).
  { apply json_string, quoted_jstring. unfold plain. cbn. repeat (constructor; [lia|]). constructor. }
  destruct (Z.eqb_spec d NEG_INF).
  { apply json_string, quoted_jstring. unfold plain. cbn. repeat (constructor; [lia|]). constructor. }
  apply json_number, N. repeat split; assumption.
Qed.
Lemma form_string : forall s, textual (j_style J) s -> exists t, json t /\ emits_val (OutputString J s) t.
Proof.
  intros s H. exists (json_quote (j_style J) s). split; [now apply json_string, quote_jstring|].
  intros c l _. apply emits_str.
Qed.
Lemma form_bool : forall b, exists t, json t /\ emits_val (OutputBool J b) t.
Proof.
  intros b. exists (lit (if b then "true" else "false")). split; [destruct b; constructor|].
  intros c l K. eapply emits_eq; [apply emits_bool|]. now rewrite vtext_key.
Qed.
Lemma elem_opens : forall et n, in_s 64 n -> opens (OutputElemListBegin J et n).
Proof.
  intros et n H. exists (FormatInt (wrapu 8 et)), [FormatInt n].
  split; [apply json_int, wrapu8_64|]. split; [constructor; [now apply json_int|constructor]|].
  intros c l. eapply emits_eq; [apply emits_elem_list|]. cbn [commas flat_map]. now rewrite app_nil_r.
Qed.
Lemma list_closes : closes OutputListEnd.
Proof. intros c l. apply emits_list_end. Qed.

Lemma simple_one : forall c, one_value c -> args_ok J c -> exists t, json t /\ emits_val (perform (simpleW J) c) t.
Proof.
  intros c H A. destruct c; try contradiction; cbn [args_ok perform] in *.
  - apply form_bool.
  - apply form_i64. in64.
  - apply form_i64. in64.
  - apply form_i64. in64.
  - now apply form_i64.
  - now apply form_double.
  - now apply form_string.
  - exists (quoted (b64_encode s)). split; [now apply json_string, quoted_jstring, b64_plain|].
    intros c l K. apply emits_sbinary.
Qed.
Lemma json_one : forall c, one_value c -> args_ok J c -> exists t, json t /\ emits_val (perform (jsonW J) c) t.
Proof.
  intros c H A. destruct c; try contradiction; cbn [args_ok perform] in *.
  - apply form_bool.
  - apply form_i64. in64.
  - apply form_i64. in64.
  - apply form_i64. in64.
  - now apply form_i64.
  - now apply form_double.
  - now apply form_string.
  - exists (quoted (b64_encode s)). split; [now apply json_string, quoted_jstring, b64_plain|].
    intros c l K. apply emits_jbinary.
Qed.
Lemma wraps32_64 : forall n, in_s 64 (wraps 32 n).
Proof.
  intros n. unfold wraps, wrapu, in_s. change (2 ^ (64 - 1)) with (2 ^ 63). change (2 ^ 32) with 4294967296.
  change (2 ^ (32 - 1)) with 2147483648. destruct (_ <? _); lia.
Qed.

Theorem simple_form : forall cs, document cs -> Forall (args_ok J) cs ->
  exists t, json t /\ forall l, emits (performs (simpleW J) cs) (TopLevel :: l) t (TopLevel :: l).
Proof.
  apply document_form.
  - apply simple_one.
  - intros et n H. now apply elem_opens.
  - apply list_closes.
  - intros et n H. now apply elem_opens.
  - apply list_closes.
  - intros kt vt n H. exists (FormatInt (wrapu 8 kt)), [FormatInt (wrapu 8 vt); FormatInt (wraps 32 n)].
    split; [apply json_int, wrapu8_64|].
    split; [constructor; [apply json_int, wrapu8_64|constructor; [apply json_int, wraps32_64|constructor]]|].
    intros c l. eapply emits_eq.
    + eapply emits_seq; [apply emits_list_begin|]. eapply emits_seq; [apply emits_i64|].
      eapply emits_seq; apply emits_i64.
    + cbn [commas flat_map sep after_value key_quote is_key app]. now rewrite <- !app_assoc, app_nil_r.
  - apply list_closes.
  - intros name t id Hn Hid. exists (json_quote (j_style J) name), [FormatInt (wrapu 8 t); FormatInt id].
    split; [now apply json_string, quote_jstring|].
    split; [constructor; [apply json_int, wrapu8_64|constructor; [apply json_int; in64|constructor]]|].
    intros c l. eapply emits_eq.
    + eapply emits_seq; [apply emits_list_begin|]. eapply emits_seq; [apply emits_str|].
      eapply emits_seq; apply emits_i64.
    + cbn [commas flat_map sep after_value key_quote is_key app]. now rewrite <- !app_assoc, app_nil_r.
  - apply list_closes.
  - intros name c l. apply emits_obj_begin.
  - intros l. apply emits_nop.
  - intros d c l. apply emits_obj_end.
  - intros name t id v tv Hn Hid Jt Et. exists (json_quote (j_style J) name ++ [58] ++ tv).
    split; [exists (json_quote (j_style J) name), tv; split; [now apply quote_jstring|auto]|].
    intros c l K. eapply emits_eq.
    + eapply emits_seq; [apply emits_str|]. eapply emits_seq.
      * replace (after_value c) with NextValue by (destruct c; try discriminate K; reflexivity). now apply Et.
      * apply emits_nop.
    + cbn [sep]. now rewrite app_nil_r, <- !app_assoc.
Qed.

Theorem json_form : forall cs, document cs -> Forall (args_ok J) cs ->
  exists t, json t /\ forall l, emits (performs (jsonW J) cs) (TopLevel :: l) t (TopLevel :: l).
Proof.
  apply document_form.
  - apply json_one.
  - intros et n H. now apply elem_opens.
  - apply list_closes.
  - intros et n H. now apply elem_opens.
  - apply list_closes.
  - intros kt vt n H. exists (type_text kt), [type_text vt; FormatInt n].
    split; [apply json_string, quoted_jstring, type_plain|].
    split; [constructor; [apply json_string, quoted_jstring, type_plain|constructor; [now apply json_int|constructor]]|].
    intros c l. eapply emits_eq.
    + eapply emits_seq; [apply emits_list_begin|]. eapply emits_seq; [apply emits_str|].
      eapply emits_seq; [apply emits_str|apply emits_i64].
    + unfold type_text. rewrite !json_quote_plain by apply type_plain.
      cbn [commas flat_map sep after_value key_quote is_key app]. now rewrite <- !app_assoc, app_nil_r.
  - apply list_closes.
  - intros name t id Hn Hid.
    exists (FormatInt 1), [json_quote (j_style J) name; FormatInt (wrapu 8 t); FormatInt id].
    split; [apply json_int; unfold in_s; lia|].
    split; [constructor; [now apply json_string, quote_jstring|constructor; [apply json_int, wrapu8_64|constructor; [apply json_int; in64|constructor]]]|].
    intros c l. eapply emits_eq.
    + eapply emits_seq; [apply emits_list_begin|]. eapply emits_seq; [apply emits_i64|].
      eapply emits_seq; [apply emits_str|]. eapply emits_seq; apply emits_i64.
    + cbn [commas flat_map sep after_value key_quote is_key app]. now rewrite <- !app_assoc, app_nil_r.
  - apply list_closes.
  - intros name c l. apply emits_obj_begin.
  - intros l. apply emits_nop.
  - intros d c l. apply emits_obj_end.
  - intros name t id v tv Hn Hid Jt Et.
    exists (quoted (FormatInt id) ++ [58] ++ [123] ++ (type_text t ++ [58] ++ tv) ++ [125]).
    split.
    + exists (quoted (FormatInt id)), ([123] ++ (type_text t ++ [58] ++ tv) ++ [125]).
      split; [apply quoted_jstring, format_plain; in64|]. split; [|reflexivity].
      apply json_object; [apply around_one|apply around_one|].
      apply mb_one; [apply quoted_jstring, type_plain|apply around_one|assumption].
    + intros c l K. eapply emits_eq.
      * eapply emits_seq.
        -- eapply emits_seq; [apply emits_i64|].
           replace (after_value c) with NextValue by (destruct c; try discriminate K; reflexivity).
           eapply emits_seq; [apply emits_obj_begin|apply emits_str].
        -- cbn [after_value]. eapply emits_seq; [now apply Et|]. cbn [after_value]. apply emits_obj_end.
      * unfold key_quote, type_text. rewrite K. cbn [sep app].
        rewrite !json_quote_plain by (apply type_plain || (apply format_plain; in64)).
        repeat (progress (cbn [app]; rewrite <- ?app_assoc)). reflexivity.
Qed.
End Both.

(** ** A text that is not JSON: two commas in a row outside of strings *)
Fixpoint adj (s : bytes) : bool :=
  match s with
  | a :: t => match t with b :: _ => ((a =? 44) && (b =? 44)) || adj t | [] => false end
  | [] => false
  end.
Definition calm (s : bytes) : Prop := s <> [] /\ hd 0 s <> 44 /\ last s 0 <> 44 /\ adj s = false.
Lemma adj_app : forall x y, adj x = false -> adj y = false -> last x 0 <> 44 \/ hd 0 y <> 44 -> adj (x ++ y) = false.
Proof.
  induction x as [|a x IH]; intros y Hx Hy L; [assumption|].
  destruct x as [|b x].
  - cbn [app]. destruct y as [|c y]; [reflexivity|]. cbn [last hd] in L.
    change (((a =? 44) && (c =? 44)) || adj (c :: y) = false). rewrite Hy. lia.
  - change (((a =? 44) && (b =? 44)) || adj (b :: x) = false) in Hx. apply orb_false_iff in Hx. destruct Hx as [H1 H2].
    change (((a =? 44) && (b =? 44)) || adj ((b :: x) ++ y) = false). rewrite H1. cbn [orb].
    apply IH; [assumption|assumption|]. destruct L as [L|L]; [left; exact L|now right].
Qed.
Lemma adj_none : forall s, ~ In 44 s -> adj s = false.
Proof.
  induction s as [|a s IH]; intros N; [reflexivity|]. destruct s as [|b s]; [reflexivity|].
  change (((a =? 44) && (b =? 44)) || adj (b :: s) = false). rewrite IH by (intros X; apply N; now right).
  assert (a <> 44) by (intros ->; apply N; now left). lia.
Qed.
Lemma hd_app : forall (x y : bytes), x <> [] -> hd 0 (x ++ y) = hd 0 x.
Proof. intros [|a x] y H; [congruence|reflexivity]. Qed.
Lemma last_app : forall (x y : bytes), y <> [] -> last (x ++ y) 0 = last y 0.
Proof.
  induction x as [|a x IH]; intros y H; [reflexivity|]. rewrite <- (IH y H). cbn [app].
  destruct (x ++ y) eqn:E; [apply app_eq_nil in E; destruct E; congruence|reflexivity].
Qed.
Lemma last_in : forall (s : bytes), s <> [] -> In (last s 0) s.
Proof.
  induction s as [|a s IH]; intros H; [congruence|]. destruct s as [|b s]; [now left|].
  right. apply IH. discriminate.
Qed.
Lemma calm_none : forall s, s <> [] -> ~ In 44 s -> calm s.
Proof.
  intros s N H. split; [assumption|]. split; [|split; [|now apply adj_none]].
  - destruct s; [congruence|]. intros E. apply H. left. exact E.
  - intros E. apply H. rewrite <- E. now apply last_in.
Qed.
Lemma calm_app : forall x y, calm x -> calm y -> calm (x ++ y).
Proof.
  intros x y (Nx & Hx & Lx & Ax) (Ny & Hy & Ly & Ay). split; [intros E; apply app_eq_nil in E; now destruct E|].
  rewrite hd_app, last_app by assumption. repeat split; try assumption. apply adj_app; auto.
Qed.
Lemma white_none : forall s, white s -> ~ In 44 s.
Proof. intros s W H. unfold white in W. rewrite Forall_forall in W. specialize (W 44 H). lia. Qed.
Lemma around_calm : forall c k, around c k -> c <> 44 -> calm k.
Proof.
  intros c k (a & b & Wa & Wb & ->) N. apply calm_none.
  - destruct a; discriminate.
  - rewrite !in_app_iff. intros [H|[[H|[]]|H]]; [now apply white_none in H|congruence|now apply white_none in H].
Qed.
Lemma comma_calm : forall v k m, calm v -> around 44 k -> calm m -> calm (v ++ k ++ m).
Proof.
  intros v k m (Nv & Hv & Lv & Av) (a & b & Wa & Wb & ->) (Nm & Hm & Lm & Am).
  split; [intros E; apply app_eq_nil in E; now destruct E|].
  rewrite hd_app by assumption.
  rewrite last_app by (destruct a; discriminate). rewrite last_app by assumption. repeat split; try assumption.
  apply white_none in Wa, Wb.
  rewrite <- !app_assoc. apply adj_app; [assumption| |now left].
  destruct a as [|x a].
  - cbn [app]. change (44 :: b ++ m) with ([44] ++ b ++ m). apply adj_app; [reflexivity| |].
    + apply adj_app; [now apply adj_none|assumption|now right].
    + right. destruct b as [|y b]; [exact Hm|]. cbn. intros ->. apply Wb. now left.
  - change ((x :: a) ++ [44] ++ b ++ m) with ((x :: a) ++ ([44] ++ b ++ m)). apply adj_app; [now apply adj_none| |].
    + apply adj_app; [reflexivity| |].
      * apply adj_app; [now apply adj_none|assumption|now right].
      * right. destruct b as [|y b]; [exact Hm|]. cbn. intros ->. apply Wb. now left.
    + left. intros E. apply Wa. rewrite <- E. apply last_in. discriminate.
Qed.
Lemma digits_none : forall s, digits s -> s <> [] /\ ~ In 44 s.
Proof. intros s [N F]. split; [assumption|]. intros H. rewrite Forall_forall in F. specialize (F 44 H). lia. Qed.
Lemma number_calm : forall s, number s -> calm s.
Proof.
  intros s (m & i & f & e & Hm & Hi & Hf & He & ->).
  assert (I0 : i <> [] /\ ~ In 44 i).
  { destruct Hi as [->|[D _]]; [split; [discriminate|cbn; intuition discriminate]|now apply digits_none]. }
  destruct I0 as [Ni I0]. apply calm_none.
  - destruct Hm as [->| ->]; [|discriminate]. destruct i; [congruence|discriminate].
  - rewrite !in_app_iff. intros [H|[H|[H|H]]]; [|contradiction| |].
    + destruct Hm as [->| ->]; cbn in H; intuition discriminate.
    + destruct Hf as [->|(d & D & ->)]; [destruct H|]. apply digits_none in D. destruct H as [H|H]; [discriminate|tauto].
    + destruct He as [->|(x & sg & d & Hx & Hs & D & ->)]; [destruct H|]. apply digits_none in D.
      destruct H as [H|H]; [lia|]. apply in_app_iff in H. destruct H as [H|H]; [|tauto].
      destruct Hs as [->|[->| ->]]; cbn in H; intuition discriminate.
Qed.
Scheme json_min := Minimality for json Sort Prop
with elements_min := Minimality for elements Sort Prop
with members_min := Minimality for members Sort Prop.
Combined Scheme json_all from json_min, elements_min, members_min.
Lemma json_calm :
  (forall t, json t -> ~ In 34 t -> calm t) /\ (forall t, elements t -> ~ In 34 t -> calm t) /\
  (forall t, members t -> In 34 t).
Proof.
  assert (A3 : forall x y z : bytes, ~ In 34 (x ++ y ++ z) -> ~ In 34 y /\ ~ In 34 z /\ ~ In 34 x).
  { intros x y z H. rewrite !in_app_iff in H. tauto. }
  assert (Js : forall n, jstring n -> In 34 n) by (intros n (t & _ & ->); now left).
  apply json_all.
  - intros _. apply calm_none; [discriminate|cbn; intuition discriminate].
  - intros _. apply calm_none; [discriminate|cbn; intuition discriminate].
  - intros _. apply calm_none; [discriminate|cbn; intuition discriminate].
  - intros s H _. now apply number_calm.
  - intros s H N. destruct (N (Js _ H)).
  - intros o m c Ho Hc _ IH N. apply A3 in N. destruct N as (N1 & _).
    apply calm_app; [eapply around_calm; [exact Ho|lia]|]. apply calm_app; [auto|eapply around_calm; [exact Hc|lia]].
  - intros o c Ho Hc _. apply calm_app; eapply around_calm; try eassumption; lia.
  - intros o m c Ho Hc _ IH N. apply A3 in N. tauto.
  - intros o c Ho Hc _. apply calm_app; eapply around_calm; try eassumption; lia.
  - intros v _ IH N. auto.
  - intros v k m _ IHv Hk _ IHm N. apply A3 in N. destruct N as (_ & N2 & N3). apply comma_calm; auto.
  - intros n k v Hn _ _ _. apply in_app_iff. left. auto.
  - intros n k v k2 m Hn _ _ _ _ _ _. apply in_app_iff. left. auto.
Qed.
Lemma json_commas : forall t, json t -> ~ In 34 t -> adj t = false.
Proof. intros t H N. apply (proj1 json_calm t H N). Qed.
