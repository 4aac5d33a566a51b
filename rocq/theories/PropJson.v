(** C54-C60: the JSON protocols. *)
From Coq Require Import ZArith List Bool Lia String Ascii.
From Coq Require Import ZifyBool ZifyNat.
From Verif Require Import Base Arith Errors Transport TransportProofs Proto Values WfDec Strconv JsonText JsonTextProofs
  F64 GoVal Names BufIO BufRead BufReadProofs Json JsonSpec JsonWrite JsonRead JsonReadVal JsonForm.
Import ListNotations.
Local Open Scope list_scope.
Local Notation length := List.length.
Open Scope Z_scope.

(** A float format and parser inverse to each other, for the examples: the bits as a decimal. *)
Definition extj : ext :=
  MkExt (fun _ => []) (fun d => FormatInt (wraps 64 d))
        (fun s => match ParseInt s 64 with (z, e) => (wrapu 64 z, e) end) (fun _ => 0) (fun _ l => l) (fun _ _ => false).
Definition J0 : jenv := MkJenv extj st10.

Lemma ascii_utf8 : forall s, forallb (fun c => (0 <=? c) && (c <? 128)) s = true ->
  exists cs, Forall scalar cs /\ s = utf8 cs.
Proof.
  intros s H. rewrite forallb_forall in H. exists s.
  assert (F : Forall scalar s) by (apply Forall_forall; intros x Hx; specialize (H x Hx); unfold scalar; lia).
  split; [assumption|]. induction s as [|c s IH]; [reflexivity|]. cbn [utf8 flat_map].
  pose proof (H c (or_introl eq_refl)) as Hc. inversion F as [|? ? Sc F']; subst.
  change (flat_map utf8_encode s) with (utf8 s). rewrite <- IH; [|intros x Hx; apply H; now right|assumption].
  destruct (utf8_encode_cases c Sc) as [[R E]|[[R _]|[[R _]|[R _]]]]; try lia. now rewrite E.
Qed.

(** ** C54 *)

(** The types whose name is read back. *)
Definition named_types : list Z :=
  [STOP; VOID; BOOL; BYTE; DOUBLE; I32; I64; STRING; STRUCT; MAP; SET; LIST; GENERIC].
Lemma beq_reflect : forall a b, reflect (a = b) (beq a b).
Proof. intros a b. unfold beq. destruct (list_eq_dec Z.eq_dec a b); constructor; assumption. Qed.

(** Of the type ids exactly [named_types] are read back, and different ones of them have different
    names; a name that is no type's is read as STOP.  Missing: I16, whose name "i16" is not
    recognised ("16" is), ENUM, which is written as I32, and UTF16, which is written as STRING. *)
Theorem C54_type_names_round_trip_partial :
  (forall t, in_u 8 t -> TypeIdToString t <> [] ->
     (StringToTypeId (TypeIdToString t) = t <-> In t named_types)) /\
  (forall t u, In t named_types -> In u named_types -> TypeIdToString t = TypeIdToString u -> t = u) /\
  (forall s, (forall t, In t named_types -> TypeIdToString t <> s) ->
     In (StringToTypeId s) [STOP; I16; ENUM; UTF16]).
Proof.
  assert (R : forall t, In t named_types -> StringToTypeId (TypeIdToString t) = t).
  { intros t H. cbn [In named_types] in H. repeat (destruct H as [<-|H]; [reflexivity|]). contradiction. }
  split; [|split].
  - intros t U Nm. split; [|apply R]. intros E.
    assert (G : forall n, (n < 256)%nat ->
              negb (StringToTypeId (TypeIdToString (Z.of_nat n)) =? Z.of_nat n) ||
              (match TypeIdToString (Z.of_nat n) with [] => true | _ => false end) ||
              existsb (Z.eqb (Z.of_nat n)) named_types = true).
    { intros n Hn.
      assert (A : forallb (fun n => negb (StringToTypeId (TypeIdToString (Z.of_nat n)) =? Z.of_nat n) ||
              (match TypeIdToString (Z.of_nat n) with [] => true | _ => false end) ||
              existsb (Z.eqb (Z.of_nat n)) named_types) (seq 0 256) = true) by (vm_compute; reflexivity).
      rewrite forallb_forall in A. apply A, in_seq. lia. }
    unfold in_u in U. change (2 ^ 8) with 256 in U. specialize (G (Z.to_nat t) ltac:(lia)).
    rewrite Z2Nat.id in G by lia. rewrite E, Z.eqb_refl in G. destruct (TypeIdToString t); [congruence|].
    cbn [negb orb] in G. apply existsb_exists in G. destruct G as (x & H & Ex). apply Z.eqb_eq in Ex. now subst.
  - intros t u Ht Hu E. rewrite <- (R t Ht), E. now apply R.
  - intros s H. unfold StringToTypeId, name_types. cbn [lookup_name].
    repeat match goal with
    | |- context [beq s ?w] => destruct (beq_reflect s w) as [->|_]
    end; cbn [In]; try tauto; exfalso;
    (match goal with H : forall t, _ -> TypeIdToString t <> lit ?w |- _ =>
       apply (H (StringToTypeId (lit w))); [cbn; tauto|reflexivity] end).
Qed.
Print Assumptions C54_type_names_round_trip_partial.
Example C54_types : TypeIdToString LIST = lit "lst" /\ TypeIdToString 300 = [] /\
  StringToTypeId (lit "lst") = LIST /\ StringToTypeId (lit "lists") = STOP.
Proof. concrete. Qed.
(** A type of the wire format is read back as STOP. *)
Theorem C54_type_names_refuted : exists t, wire_type t /\ StringToTypeId (TypeIdToString t) = STOP /\ t <> STOP.
Proof. exists I16. concrete. Qed.
Print Assumptions C54_type_names_refuted.

(** ** Round trips of single values *)

(** [b] has read nothing but [t] remains to be read, buffered or not, in any chunks. *)
Definition holds (b : breader) (t : bytes) : Prop :=
  b_err b = None /\ benign (b_rt b) /\ b_un b ++ content (b_rt b) = t.
Lemma holds_view : forall b t, holds b t <-> view Loose b 0 t [].
Proof.
  intros b t. split.
  - intros (E & B & C). constructor; try assumption; [now rewrite app_nil_r|congruence|exact I].
  - intros V. repeat split; [apply (v_err _ _ _ _ _ V)|apply (v_ben _ _ _ _ _ V)|].
    rewrite (v_con _ _ _ _ _ V). apply app_nil_r.
Qed.
Lemma view_holds : forall k b prev s rest, view k b prev s rest -> holds b (s ++ rest).
Proof.
  intros k b prev s rest V. repeat split; [apply (v_err _ _ _ _ _ V)|apply (v_ben _ _ _ _ _ V)|apply (v_con _ _ _ _ _ V)].
Qed.
Lemma loose_prev : forall b p q s rest, view Loose b p s rest -> view Loose b q s rest.
Proof. intros b p q s rest [A B C D R]. constructor; try assumption. congruence. Qed.

(** What [w] writes in any context, [m] reads as [a] in the same context, however the text is cut
    into chunks and whatever text in [fol] comes after it; [m] leaves what comes after it.  A
    separator before the value has to be in the buffer already (see C60 for what happens
    otherwise). *)
Definition round_trip {A} (w : wop jw) (m : rop jr A) (a : A) (fol : bytes -> Prop) : Prop :=
  forall c l, exists doc,
    (forall o, w (MkWt o [], c :: l) = Ok (None, (MkWt (o ++ doc) [], after_value c :: l))) /\
    (forall b rest, holds b (doc ++ rest) -> (In c [InList; NextKey; NextValue] -> b_un b <> []) -> fol rest ->
     exists b', m (b, c :: l) = Ok (a, None, (b', after_value c :: l)) /\ holds b' rest).
(** The same for a document of its own, with newly made protocols and without conditions on the
    buffer. *)
Definition document_trip {A} (w : wop jw) (m : rop jr A) (a : A) (fol : bytes -> Prop) : Prop :=
  forall l, exists doc,
    w (MkWt [] [], TopLevel :: l) = Ok (None, (MkWt doc [], TopLevel :: l)) /\
    forall r rest, benign r -> content r = doc ++ rest -> fol rest ->
    exists b', m (new_breader r, TopLevel :: l) = Ok (a, None, (b', TopLevel :: l)) /\ holds b' rest.
Lemma trip_document : forall A w (m : rop jr A) a fol, round_trip w m a fol -> document_trip w m a fol.
Proof.
  intros A w m a fol H l. destruct (H TopLevel l) as (doc & W & R). exists doc. split; [exact (W [])|].
  intros r rest B C F. apply R; [|cbn; intuition discriminate|assumption].
  repeat split; [assumption|exact C].
Qed.
Lemma ready_of : forall b c, (In c [InList; NextKey; NextValue] -> b_un b <> []) -> ready Loose b c.
Proof. intros b c H. right. destruct c; try (now left); right; apply H; cbn; auto. Qed.

(** ** C55 *)

(** Strings that are UTF-8, over both protocols.  Missing: strings that are not. *)
Theorem C55_string_round_trip_partial : forall J cs, Forall scalar cs ->
  round_trip (wString (simpleW J) (utf8 cs)) (rString (simpleR J)) (utf8 cs) nows /\
  round_trip (wString (jsonW J) (utf8 cs)) (rString (jsonR J)) (utf8 cs) nows /\
  document_trip (wString (simpleW J) (utf8 cs)) (rString (simpleR J)) (utf8 cs) nows /\
  document_trip (wString (jsonW J) (utf8 cs)) (rString (jsonR J)) (utf8 cs) nows.
Proof.
  intros J cs F.
  assert (G : round_trip (OutputString J (utf8 cs)) ReadString (utf8 cs) nows).
  { intros c l. exists (sep c ++ json_quote (j_style J) (utf8 cs)). split; [exact (emits_str J (utf8 cs) c l)|].
    intros b rest H Rd N. apply holds_view in H. rewrite <- app_assoc in H.
    destruct (ReadString_view (j_style J) c cs Loose b 0 rest [] l F I (ready_of b c Rd) H) as (b' & E & V).
    { now rewrite app_nil_r. }
    exists b'. split; [exact E|]. apply view_holds in V. now rewrite app_nil_r in V. }
  split; [exact G|]. split; [exact G|]. split; exact (trip_document _ _ _ _ _ G).
Qed.
Print Assumptions C55_string_round_trip_partial.
(** a quote, a backslash, a newline, <, a two-byte, a three-byte and a four-byte character *)
Definition str55 : list Z := [34; 92; 10; 60; 233; 8364; 119070; 65].
Example C55_string :
  Forall scalar str55 /\
  wString (jsonW J0) (utf8 str55) (json_w (MkWt [] [])) =
    Ok (None, (MkWt (lit """\""\\\n\u003c" ++ [195; 169; 226; 130; 172; 240; 157; 132; 158] ++ lit "A""") [],
               [TopLevel; TopLevel])) /\
  benign [(lit """\""\\\n\u00", None); (lit "3c" ++ [195; 169; 226], None); ([130; 172; 240; 157; 132; 158], None); (lit "A""", None)] /\
  match rString (jsonR J0) (json_r [(lit """\""\\\n\u00", None); (lit "3c" ++ [195; 169; 226], None);
                              ([130; 172; 240; 157; 132; 158], None); (lit "A""", None)]) with
  | Ok (s, None, _) => s = utf8 str55
  | _ => False
  end.
Proof.
  split; [repeat (constructor; [unfold scalar; lia|]); constructor|]. concrete. vm_compute. reflexivity.
Qed.
(** Whatever encoding/json does with invalid UTF-8 (refuse it, so that JsonQuote gives nothing, or
    replace it), some byte string does not come back. *)
Theorem C55_string_round_trip_refuted : forall J, exists s doc, is_bytes s /\
  wString (simpleW J) s (simple_w (MkWt [] [])) = Ok (None, (MkWt doc [], [TopLevel])) /\
  forall r, benign r -> content r = doc ->
  ~ exists st, rString (simpleR J) (simple_r r) = Ok (s, None, st).
Proof.
  intros J. exists [255], (json_quote (j_style J) [255]). split; [concrete|].
  split; [exact (emits_str J [255] TopLevel [] [])|].
  intros r B C (st & E). unfold json_quote in C. cbn -[u_escape] in C.
  destruct (js_lossy (j_style J)).
  - assert (V : view Loose (new_breader r) 0 (quoted (u_escape 65533)) []).
    { apply holds_view. split; [reflexivity|]. split; [assumption|]. exact C. }
    pose proof (body_u 65533) as Bd.
    destruct (read_quoted_view ParseStringBody TopLevel (u_escape 65533) (utf8 [65533]) Loose (new_breader r) 0 [] [] []) as (b' & E' & _).
    + apply ready_of. cbn; intuition discriminate.
    + rewrite app_nil_r. exact V.
    + exact I.
    + intros b0 p0 V0. eapply string_body_view; [exact Bd|exact I|reflexivity|exact V0].
    + unfold rString, simpleR, simple_r in E. change (ReadString (new_breader r, [TopLevel]) = Ok ([255], None, st)) in E.
      unfold ReadString in E. rewrite E' in E. discriminate E.
  - apply content_nil in C; [|assumption]. subst r. vm_compute in E. discriminate E.
Qed.
Print Assumptions C55_string_round_trip_refuted.

(** ** C56 *)

(** Byte slices, over both protocols. *)
Theorem C56_binary_round_trip : forall J v, is_bytes v ->
  round_trip (wBinary (simpleW J) v) (rBinary (simpleR J)) v nows /\
  round_trip (wBinary (jsonW J) v) (rBinary (jsonR J)) v nows /\
  document_trip (wBinary (simpleW J) v) (rBinary (simpleR J)) v nows /\
  document_trip (wBinary (jsonW J) v) (rBinary (jsonR J)) v nows.
Proof.
  intros J v B.
  assert (R : forall c l b rest, holds b ((sep c ++ quoted (b64_encode v)) ++ rest) ->
    (In c [InList; NextKey; NextValue] -> b_un b <> []) -> nows rest ->
    exists b', ReadBinary (b, c :: l) = Ok (v, None, (b', after_value c :: l)) /\ holds b' rest).
  { intros c l b rest H Rd N. apply holds_view in H. rewrite <- app_assoc in H.
    destruct (ReadBinary_view c v Loose b 0 rest [] l B I (ready_of b c Rd) H) as (b' & E & V).
    { now rewrite app_nil_r. }
    exists b'. split; [exact E|]. apply view_holds in V. now rewrite app_nil_r in V. }
  assert (Gs : round_trip (sWriteBinary v) ReadBinary v nows).
  { intros c l. exists (sep c ++ quoted (b64_encode v)). split; [exact (emits_sbinary v c l)|apply R]. }
  assert (Gj : round_trip (jWriteBinary v) ReadBinary v nows).
  { intros c l. exists (sep c ++ quoted (b64_encode v)). split; [exact (emits_jbinary v c l)|apply R]. }
  split; [exact Gs|]. split; [exact Gj|]. split; [exact (trip_document _ _ _ _ _ Gs)|exact (trip_document _ _ _ _ _ Gj)].
Qed.
Print Assumptions C56_binary_round_trip.
Example C56_binary :
  wBinary (simpleW J0) [0; 255; 16; 131] (simple_w (MkWt [] [])) = Ok (None, (MkWt (lit """AP8Qgw==""") [], [TopLevel])) /\
  benign [(lit """AP8", None); (lit "Qgw=", None); (lit "=""", None)] /\
  match rBinary (simpleR J0) (simple_r [(lit """AP8", None); (lit "Qgw=", None); (lit "=""", None)]) with
  | Ok (s, None, _) => s = [0; 255; 16; 131]
  | _ => False
  end.
Proof. concrete. vm_compute. reflexivity. Qed.

(** ** C57 *)

(** Integers of all sizes over both protocols, in values and in the names of object members. *)
Theorem C57_integer_round_trip : forall J z,
  let both w m :=
    round_trip w m z delim /\ document_trip w m z delim in
  (in_u 8 z -> both (wByte (simpleW J) z) (rByte (simpleR J)) /\ both (wByte (jsonW J) z) (rByte (jsonR J))) /\
  (in_s 16 z -> both (wI16 (simpleW J) z) (rI16 (simpleR J)) /\ both (wI16 (jsonW J) z) (rI16 (jsonR J))) /\
  (in_s 32 z -> both (wI32 (simpleW J) z) (rI32 (simpleR J)) /\ both (wI32 (jsonW J) z) (rI32 (jsonR J))) /\
  (in_s 64 z -> both (wI64 (simpleW J) z) (rI64 (simpleR J)) /\ both (wI64 (jsonW J) z) (rI64 (jsonR J))).
Proof.
  intros J z.
  assert (G : forall f, f z = z -> in_s 64 z -> round_trip (OutputI64 J z) (rconv f (ReadI64 J)) z delim).
  { intros f Fz H c l. exists (sep c ++ key_text c (FormatInt z)). split.
    - intros o. rewrite (emits_i64 J z c l o). unfold key_quote, key_text.
      destruct (is_key c); [|reflexivity]. rewrite json_quote_plain; [reflexivity|now apply format_plain].
    - intros b rest Hb Rd D. apply holds_view in Hb. rewrite <- app_assoc in Hb.
      destruct (rconv_view J Loose f c z b 0 rest [] l (ready_of b c Rd) H Fz Hb) as (b' & p' & E & V).
      { now rewrite app_nil_r. }
      exists b'. split; [exact E|]. apply view_holds in V. now rewrite app_nil_r in V. }
  assert (G64 : in_s 64 z -> round_trip (OutputI64 J z) (ReadI64 J) z delim).
  { intros H c l. destruct (G (fun x => x) eq_refl H c l) as (doc & W & R). exists doc. split; [exact W|].
    intros b rest Hb Rd D. destruct (R b rest Hb Rd D) as (b' & E & V). exists b'. split; [|exact V].
    revert E. unfold rconv. destruct (ReadI64 J (b, c :: l)) as [[[v e] s']| |]; cbn; intros E; congruence. }
  assert (T : forall m : rop jr Z, round_trip (OutputI64 J z) m z delim ->
    (round_trip (OutputI64 J z) m z delim /\ document_trip (OutputI64 J z) m z delim) /\
    (round_trip (OutputI64 J z) m z delim /\ document_trip (OutputI64 J z) m z delim)).
  { intros m H. pose proof (trip_document _ _ _ _ _ H). auto. }
  cbv zeta. repeat split; try intros H.
  1-4: apply (T (ReadByte J)), G; [unfold wrapu, in_u in *; apply Z.mod_small; lia|unfold in_u, in_s in *; lia].
  1-4: apply (T (ReadI16 J)), G; [now apply wraps_id|apply (in_s_64 16); [lia|assumption]].
  1-4: apply (T (ReadI32 J)), G; [now apply wraps_id|apply (in_s_64 32); [lia|assumption]].
  all: apply (T (ReadI64 J)), G64; assumption.
Qed.
Print Assumptions C57_integer_round_trip.
(** The smallest 64-bit integer, as a member's name, behind a comma. *)
Example C57_integer :
  wI64 (jsonW J0) (- 2 ^ 63) (MkWt [] [], [NextKey; TopLevel]) =
    Ok (None, (MkWt (lit ",""-9223372036854775808""") [], [NextValue; TopLevel])) /\
  match rI64 (jsonR J0) (MkB [] (lit ",""-9") [] None [(lit "2233720368547758", None); (lit "08"":", None)], [NextKey; TopLevel]) with
  | Ok (z, None, (b, l)) => z = - 2 ^ 63 /\ b_un b ++ content (b_rt b) = lit ":" /\ l = [NextValue; TopLevel]
  | _ => False
  end.
Proof. concrete. vm_compute. repeat split. Qed.

(** ** C58 *)

(** Properly nested writes ([document]: a value or a message, JsonForm.v) with UTF-8 strings, or
    with any strings if encoding/json replaces what is not UTF-8, give a JSON text ([json], the
    grammar of RFC 8259 in JsonSpec.v).  Missing: strings that are not UTF-8 when encoding/json
    refuses them. *)
Theorem C58_output_is_json_partial : forall J cs, document cs -> Forall (args_ok J) cs ->
  (exists t, json t /\
     performs (simpleW J) cs (simple_w (MkWt [] [])) = Ok (None, (MkWt t [], [TopLevel]))) /\
  (exists t, json t /\
     performs (jsonW J) cs (json_w (MkWt [] [])) = Ok (None, (MkWt t [], [TopLevel; TopLevel]))).
Proof.
  intros J cs D A. split.
  - destruct (simple_form J cs D A) as (t & Jt & E). exists t. split; [assumption|exact (E [] [])].
  - destruct (json_form J cs D A) as (t & Jt & E). exists t. split; [assumption|exact (E [TopLevel] [])].
Qed.
Print Assumptions C58_output_is_json_partial.
Definition calls58 : list wcall :=
  [CMessageBegin (lit "f") 1 7;
   CStructBegin (lit "args");
   CFieldBegin (lit "a") LIST 1; CListBegin MAP 2;
   CMapBegin STRING I32 1; CString (lit "k"); CI32 (-5); CMapEnd;
   CMapBegin STRING I32 0; CMapEnd;
   CListEnd; CFieldEnd;
   CFieldBegin (lit "b") BOOL 2; CBool true; CFieldEnd;
   CFieldStop; CStructEnd;
   CMessageEnd].
Example C58_calls : document calls58 /\ Forall (args_ok J0) calls58 /\
  performs (simpleW J0) calls58 (simple_w (MkWt [] [])) =
    Ok (None, (MkWt (lit "[""f"",1,7,{""a"":[13,2,[11,8,1,""k"",-5],[11,8,0]],""b"":true}]") [], [TopLevel])).
Proof.
  assert (T : forall s, forallb (fun c => (0 <=? c) && (c <? 128)) s = true -> textual (j_style J0) s).
  { intros s H. split.
    - apply Forall_forall. intros x Hx. rewrite forallb_forall in H. specialize (H x Hx). unfold is_byte. lia.
    - right. now apply ascii_utf8. }
  split; [|split].
  - unfold calls58.
    assert (Vs : forall v, value v -> values v).
    { intros v H. rewrite <- (app_nil_r v). apply vs_cons; [assumption|constructor]. }
    apply (d_message (lit "f") 1 7
      [CStructBegin (lit "args"); CFieldBegin (lit "a") LIST 1; CListBegin MAP 2;
       CMapBegin STRING I32 1; CString (lit "k"); CI32 (-5); CMapEnd; CMapBegin STRING I32 0; CMapEnd;
       CListEnd; CFieldEnd; CFieldBegin (lit "b") BOOL 2; CBool true; CFieldEnd; CFieldStop; CStructEnd]).
    apply Vs.
    apply (v_struct (lit "args")
      [CFieldBegin (lit "a") LIST 1; CListBegin MAP 2;
       CMapBegin STRING I32 1; CString (lit "k"); CI32 (-5); CMapEnd; CMapBegin STRING I32 0; CMapEnd;
       CListEnd; CFieldEnd; CFieldBegin (lit "b") BOOL 2; CBool true; CFieldEnd]).
    apply (fs_cons (lit "a") LIST 1
      [CListBegin MAP 2; CMapBegin STRING I32 1; CString (lit "k"); CI32 (-5); CMapEnd; CMapBegin STRING I32 0; CMapEnd; CListEnd]).
    + apply (v_list MAP 2 [CMapBegin STRING I32 1; CString (lit "k"); CI32 (-5); CMapEnd; CMapBegin STRING I32 0; CMapEnd]).
      apply (vs_cons [CMapBegin STRING I32 1; CString (lit "k"); CI32 (-5); CMapEnd]).
      * apply (v_map STRING I32 1 [CString (lit "k"); CI32 (-5)]). apply (vs_cons [CString (lit "k")]); [apply v_one; exact I|].
        apply Vs, v_one. exact I.
      * apply Vs. apply (v_map STRING I32 0 []). constructor.
    + apply (fs_cons (lit "b") BOOL 2 [CBool true] []); [apply v_one; exact I|constructor].
  - unfold calls58.
    repeat (apply Forall_cons; [cbn [args_ok]; try exact I; try (split; [apply T; reflexivity|concrete]); try (apply T; reflexivity); concrete|]).
    constructor.
  - concrete.
Qed.
(** With the encoding/json of Go 1.0, a byte that is not UTF-8 makes the string vanish: two commas
    in a row. *)
Theorem C58_output_is_json_refuted : exists cs t, document cs /\
  (forall s, In (CString s) cs -> is_bytes s) /\
  performs (simpleW J0) cs (simple_w (MkWt [] [])) = Ok (None, (MkWt t [], [TopLevel])) /\
  ~ json t.
Proof.
  exists [CListBegin STRING 2; CString [255]; CBool true; CListEnd], (lit "[11,2,,true]"). split; [|split; [|split]].
  - apply d_value. apply (v_list STRING 2 [CString [255]; CBool true]).
    apply (vs_cons [CString [255]]); [apply v_one; exact I|].
    apply (vs_cons [CBool true] []); [apply v_one; exact I|constructor].
  - intros s [H|[H|[H|[H|[]]]]]; try discriminate. injection H as <-. concrete.
  - concrete.
  - intros H. apply json_commas in H; [|cbn; intuition discriminate]. discriminate H.
Qed.
Print Assumptions C58_output_is_json_refuted.

(** ** C59 *)

(** The text can be read: its chunks and its length are as in [k] (BufReadProofs.v), and no chunk
    ends at a tight position of the text: before a comma or colon, behind an opening brace, inside
    NaN" or Infinity"; with [Strict], also behind a comma. *)
Definition readable (k : mode) (doc rest : bytes) (r : rt) : Prop :=
  benign r /\ content r = doc ++ rest /\ room k r doc /\ Forall (fun i => tpos k 0 doc i = false) (ends 0 r).
Lemma readable_view : forall k doc rest r, readable k doc rest r -> view k (new_breader r) 0 doc rest.
Proof. intros k doc rest r (B & C & R & S). constructor; try assumption; [reflexivity|]. intros _. exact S. Qed.

(** Values written by TJSONProtocol are read back ([canon]: NaNs as the NaN of Go), if they are as
    [plain_val] says: every string is UTF-8, FormatFloat gives JSON numbers that ParseFloat reads
    back, and no struct field and no map key or value is of type I16.  Missing: I16, strings that
    are not UTF-8, other cuts of the text. *)
Theorem C59_value_round_trip_partial : forall J k v, k <> Loose -> wf v -> plain_val J k v ->
  exists doc,
    write_val (jsonW J) v (json_w (MkWt [] [])) = Ok (None, (MkWt doc [], [TopLevel; TopLevel])) /\
    forall r rest f, readable k doc rest r -> follows v rest -> (need v <= f)%nat ->
    exists b, read_val (jsonR J) f (vtype v) (json_r r) = Ok (inl (canon v), (b, [TopLevel; TopLevel])) /\ holds b rest.
Proof.
  intros J k v Kl W P. exists (vtext J v). split; [exact (write_val_text J v W TopLevel [TopLevel] eq_refl [])|].
  intros r rest f R F L. apply readable_view in R. rewrite <- (app_nil_r (vtext J v)) in R.
  destruct (read_val_good J k Kl v W P TopLevel [TopLevel] f eq_refl L (new_breader r) 0 [] rest R F)
    as (b & p & E & V). exists b. split; [exact E|exact (view_holds _ _ _ _ _ V)].
Qed.
Print Assumptions C59_value_round_trip_partial.

Lemma one_chunk : forall doc, doc <> [] -> (length doc <= 4096)%nat -> tpos Short 0 doc 0 = false ->
  readable Short doc [] [(doc, None)].
Proof.
  intros doc N L T. split; [constructor; [split; [exact N|reflexivity]|constructor]|].
  split; [reflexivity|]. split; [exact L|]. cbn [ends]. repeat constructor; [assumption|].
  apply tpos_ge. cbn. lia.
Qed.
Lemma vtext_start : forall J k v, wf v -> plain_val J k v -> vtext J v <> [] /\ tpos k 0 (vtext J v) 0 = false.
Proof.
  intros J k. assert (Bh : behind k 0 = false) by now destruct k.
  assert (N : forall s, numeric s -> s <> [] /\ tpos k 0 s 0 = false).
  { intros s (N & _ & _ & (x0 & R)). split; [assumption|]. unfold tpos. destruct s as [|c s]; [congruence|]. cbn [nth_error nth]. cbv zeta. rewrite Bh, orb_false_r.
    cbn [num_run] in R.
    unfold tight. rewrite !orb_false_iff. repeat split; try reflexivity.
    - destruct (Z.eqb_spec c 44); [subst; cbn in R; discriminate R|reflexivity].
    - destruct (Z.eqb_spec c 58); [subst; cbn in R; discriminate R|reflexivity]. }
  assert (H0 : forall c s, c <> 44 -> c <> 58 -> c :: s <> [] /\ tpos k 0 (c :: s) 0 = false).
  { intros c s H1 H2. split; [discriminate|]. unfold tpos. cbn [nth_error nth]. cbv zeta. rewrite Bh, orb_false_r. unfold tight. cbn. destruct (Z.eqb_spec c 44), (Z.eqb_spec c 58); try congruence; reflexivity. }
  intros v W P. destruct v as [b|z|z|z|z|d|s|et l|et l|kt vt l|fs]; cbn [vtext];
    try (apply N, numeric_format; cbn in W).
  - destruct b; (split; [discriminate|destruct k; reflexivity]).
  - unfold in_u, in_s in *; lia.
  - apply (in_s_64 16); [lia|exact W].
  - apply (in_s_64 32); [lia|exact W].
  - exact W.
  - cbn in P. unfold float_ok in P. unfold double_text, quoted.
    destruct (f64_is_nan d); [apply H0; lia|]. destruct (Z.eqb_spec d INF); [apply H0; lia|].
    destruct (Z.eqb_spec d NEG_INF); [apply H0; lia|]. destruct P as [P|[P|[P|[P _]]]]; try congruence.
    now apply N, number_numeric.
  - destruct P as [(cs & F & ->) _]. rewrite json_quote_utf8 by assumption. apply H0; lia.
  - apply H0; lia.
  - apply H0; lia.
  - apply H0; lia.
  - apply H0; lia.
Qed.
(** A document of at most 4096 bytes that arrives in one piece. *)
Theorem C59_one_chunk_round_trip_partial : forall J v, wf v -> plain_val J Short v ->
  exists doc,
    write_val (jsonW J) v (json_w (MkWt [] [])) = Ok (None, (MkWt doc [], [TopLevel; TopLevel])) /\
    forall f, (length doc <= 4096)%nat -> (need v <= f)%nat ->
    exists s, read_val (jsonR J) f (vtype v) (json_r [(doc, None)]) = Ok (inl (canon v), s).
Proof.
  intros J v W P. exists (vtext J v). split; [exact (write_val_text J v W TopLevel [TopLevel] eq_refl [])|].
  intros f L Lf. destruct (vtext_start J Short v W P) as [N T].
  pose proof (readable_view _ _ _ _ (one_chunk _ N L T)) as R. rewrite <- (app_nil_r (vtext J v)) in R at 2.
  destruct (read_val_good J Short ltac:(discriminate) v W P TopLevel [TopLevel] f eq_refl Lf _ 0 [] [] R)
    as (b & p & E & _); [|exists (b, [TopLevel; TopLevel]); exact E].
  apply follows_delim. exact I.
Qed.
Print Assumptions C59_one_chunk_round_trip_partial.

(** Whole messages. *)
Section Message.
Variable J : jenv.
Definition message_text (name : bytes) (t id : Z) : bytes :=
  [91] ++ FormatInt 1 ++ [44] ++ json_quote (j_style J) name ++ [44] ++ FormatInt t ++ [44] ++ FormatInt id.
Lemma message_emits : forall name t id c l, in_u 8 t ->
  emits (wMessageBegin (jsonW J) name t id) (c :: l) (sep c ++ message_text name t id) (InList :: c :: l).
Proof.
  intros name t id c l U. eapply emits_eq.
  - eapply emits_seq; [apply emits_list_begin|]. eapply emits_seq; [apply emits_i64|].
    eapply emits_seq; [apply emits_str|]. eapply emits_seq; apply emits_i64.
  - unfold message_text, wrapu. cbn [sep after_value key_quote is_key app].
    rewrite Z.mod_small by (unfold in_u in U; exact U).
    repeat (progress (cbn [app]; rewrite <- ?app_assoc)). reflexivity.
Qed.
Lemma MessageBegin_view : forall k c name t id b prev s rest l, k <> Loose -> text_ok J k name -> in_u 8 t -> in_s 32 id ->
  view k b prev (sep c ++ message_text name t id ++ s) rest -> delim (s ++ rest) ->
  exists b' p', jReadMessageBegin J (b, c :: l) = Ok ((name, t, id), None, (b', InList :: c :: l)) /\ view k b' p' s rest.
Proof.
  intros k c name t id b prev s rest l Kl [(cs & F & ->) Fi] U Hid V D. unfold jReadMessageBegin.
  pose proof (rdy k Kl) as Rd.
  assert (H1 : in_s 64 1) by (unfold in_s; lia).
  assert (Ht : in_s 64 t) by (unfold in_u, in_s in *; lia).
  assert (Hid64 : in_s 64 id) by (apply (in_s_64 32); [lia|assumption]).
  unfold message_text in V. rewrite <- !app_assoc in V.
  destruct (ListBegin_view c k b prev (FormatInt 1 ++ [44] ++ json_quote (j_style J) (utf8 cs) ++ [44] ++ FormatInt t ++ [44] ++ FormatInt id ++ s)
              rest l (Rd _ _) V) as (b1 & -> & V1).
  { rewrite !app_length. cbn [length].
    assert (1 <= length (FormatInt 1))%nat by (vm_compute; lia). lia. }
  cbn [obind]. unfold read_envelope, ReadI32, ReadByte.
  destruct (rconv_view J k (wraps 32) ListFirst 1 b1 91 ([44] ++ json_quote (j_style J) (utf8 cs) ++ [44] ++ FormatInt t ++ [44] ++ FormatInt id ++ s)
              rest (c :: l) (Rd _ _) H1 eq_refl V1) as (b2 & p2 & -> & V2); [cbn; tauto|].
  cbn [obind after_value]. change (1 =? 1) with true. cbv iota.
  destruct (ReadString_view (j_style J) InList cs k b2 p2 ([44] ++ FormatInt t ++ [44] ++ FormatInt id ++ s) rest (c :: l) F Fi (Rd _ _) V2)
    as (b3 & -> & V3); [reflexivity|]. cbn [obind after_value].
  destruct (rconv_view J k (wrapu 8) InList t b3 34 ([44] ++ FormatInt id ++ s) rest (c :: l) (Rd _ _) Ht) as (b4 & p4 & -> & V4);
    [unfold wrapu; unfold in_u in U; now apply Z.mod_small|exact V3|cbn; tauto|]. cbn [obind after_value].
  destruct (rconv_view J k (wraps 32) InList id b4 p4 s rest (c :: l) (Rd _ _) Hid64) as (b5 & p5 & -> & V5);
    [now apply wraps_id|exact V4|exact D|]. cbn [obind after_value]. eauto.
Qed.
End Message.
(** A message: its header, a value and its end. *)
Theorem C59_message_round_trip_partial : forall J k name t id v, k <> Loose ->
  text_ok J k name -> in_u 8 t -> in_s 32 id -> wf v -> plain_val J k v ->
  exists doc,
    (wMessageBegin (jsonW J) name t id >>> write_val (jsonW J) v >>> wMessageEnd (jsonW J)) (json_w (MkWt [] [])) =
      Ok (None, (MkWt doc [], [TopLevel; TopLevel])) /\
    forall r rest f, readable k doc rest r -> nows rest -> (need v <= f)%nat ->
    exists s1 s2 b,
      rMessageBegin (jsonR J) (json_r r) = Ok ((name, t, id), None, s1) /\
      read_val (jsonR J) f (vtype v) s1 = Ok (inl (canon v), s2) /\
      rMessageEnd (jsonR J) s2 = Ok (None, (b, [TopLevel; TopLevel])) /\ holds b rest.
Proof.
  intros J k name t id v Kl Hn Ht Hid W P.
  exists (message_text J name t id ++ ([44] ++ vtext J v) ++ [93]). split.
  - assert (E : emits (wMessageBegin (jsonW J) name t id >>> write_val (jsonW J) v >>> wMessageEnd (jsonW J)) [TopLevel; TopLevel]
       (message_text J name t id ++ ([44] ++ vtext J v) ++ [93]) [TopLevel; TopLevel]).
    { eapply emits_seq; [exact (message_emits J name t id TopLevel [TopLevel] Ht)|].
      eapply emits_seq; [exact (write_val_text J v W InList [TopLevel; TopLevel] eq_refl)|].
      apply emits_list_end. }
    exact (E []).
  - intros r rest f R N L. apply readable_view in R.
    destruct (MessageBegin_view J k TopLevel name t id (new_breader r) 0 (([44] ++ vtext J v) ++ [93]) rest [TopLevel] Kl Hn Ht Hid R)
      as (b1 & p1 & E1 & V1); [cbn; tauto|].
    destruct (read_val_good J k Kl v W P InList [TopLevel; TopLevel] f eq_refl L b1 p1 [93] rest V1)
      as (b2 & p2 & E2 & V2); [apply follows_delim; cbn; tauto|].
    destruct (end_view (fun c => match c with InList => true | _ => false end) 93 TopLevel InList k b2 p2 [] rest [TopLevel]
                eq_refl eq_refl ltac:(lia) V2 N) as (b3 & E3 & V3).
    exists (b1, [InList; TopLevel; TopLevel]), (b2, [InList; TopLevel; TopLevel]), b3.
    split; [exact E1|]. split; [exact E2|]. split; [exact E3|exact (view_holds _ _ _ _ _ V3)].
Qed.
Print Assumptions C59_message_round_trip_partial.

(** All hypotheses for a value of every kind, in three chunks. *)
Definition val59 : tval :=
  VStruct [(1, VBool true); (2, VList STRING [VStr (lit "a""b"); VStr []]);
           (3, VMap I32 DOUBLE [(VI32 (-7), VDouble 4607182418800017408); (VI32 8, VDouble NEG_INF)]);
           (-4, VStruct [(5, VSet I16 [VI16 1; VI16 (-2)])]); (6, VByte 255)].
Definition doc59 : bytes :=
  lit "{""1"":{""tf"":true},""2"":{""lst"":[11,2,""a\""b"",""""]},""3"":{""map"":[""i32"",""dbl"",2,-7,4607182418800017408,8,""-Infinity""]},""-4"":{""rec"":{""5"":{""set"":[6,2,1,-2]}}},""6"":{""i8"":255}}".
Example C59_value : wf val59 /\ plain_val J0 Short val59 /\ canon val59 = val59 /\
  write_val (jsonW J0) val59 (json_w (MkWt [] [])) = Ok (None, (MkWt doc59 [], [TopLevel; TopLevel])) /\
  readable Short doc59 [] [(firstn 8 doc59, None); (firstn 20 (skipn 8 doc59), None); (skipn 28 doc59, None)] /\
  match read_val (jsonR J0) 30 STRUCT (json_r [(firstn 8 doc59, None); (firstn 20 (skipn 8 doc59), None); (skipn 28 doc59, None)]) with
  | Ok (inl v, _) => v = val59
  | _ => False
  end.
Proof.
  pose proof ascii_utf8 as T.
  split; [concrete|]. split.
  { cbn -[I16 lit NEG_INF]. repeat split; try discriminate; try (apply T; reflexivity).
    - right; right; right. split; [apply number_format; concrete|vm_compute; reflexivity].
    - right; right; now left. }
  split; [concrete|]. split; [concrete|]. split.
  { split; [concrete|]. split; [reflexivity|]. split; [vm_compute; lia|]. repeat (constructor; [vm_compute; reflexivity|]). constructor. }
  vm_compute. reflexivity.
Qed.

(** An I16 field of a struct is read as nothing. *)
Theorem C59_i16_field_refuted : exists v doc, wf v /\
  write_val (jsonW J0) v (json_w (MkWt [] [])) = Ok (None, (MkWt doc [], [TopLevel; TopLevel])) /\
  forall f, ~ exists w s, read_val (jsonR J0) (S (S (S f))) (vtype v) (json_r [(doc, None)]) = Ok (inl w, s).
Proof.
  exists (VStruct [(1, VI16 5)]), (lit "{""1"":{""i16"":5}}"). split; [concrete|]. split; [concrete|].
  intros f (w & s & E). vm_compute in E. discriminate E.
Qed.
Print Assumptions C59_i16_field_refuted.
(** A list of strings whose text is longer than the buffer: the comma at position 4096 is not seen. *)
Definition long59 : tval := VList STRING (map VStr (lit "abcde" :: repeat (lit "ab") 999)).
Theorem C59_long_document_refuted : exists v doc, wf v /\ plain_val J0 Short v /\
  write_val (jsonW J0) v (json_w (MkWt [] [])) = Ok (None, (MkWt doc [], [TopLevel; TopLevel])) /\
  ~ exists w s, read_val (jsonR J0) (need v) (vtype v) (json_r [(doc, None)]) = Ok (inl w, s).
Proof.
  exists long59, (vtext J0 long59). split; [concrete|]. split.
  { unfold long59. cbn [plain_val map all]. split; [split; [now apply ascii_utf8|exact I]|].
    generalize 999%nat. intros n. induction n; cbn; [exact I|]. split; [|assumption].
    split; [now apply ascii_utf8|exact I]. }
  split; [vm_compute; reflexivity|].
  intros (w & s & E). vm_compute in E. discriminate E.
Qed.
Print Assumptions C59_long_document_refuted.

(** ** C60 *)

(** What TJSONProtocol wrote is read the same from any two cuts of it that are [readable].  Missing:
    other cuts (see below), texts that TJSONProtocol did not write. *)
Theorem C60_chunking_partial : forall J k1 k2 v doc rest r1 r2 f, k1 <> Loose -> k2 <> Loose ->
  wf v -> plain_val J k1 v -> plain_val J k2 v ->
  write_val (jsonW J) v (json_w (MkWt [] [])) = Ok (None, (MkWt doc [], [TopLevel; TopLevel])) ->
  readable k1 doc rest r1 -> readable k2 doc rest r2 -> follows v rest -> (need v <= f)%nat ->
  exists w b1 b2 l,
    read_val (jsonR J) f (vtype v) (json_r r1) = Ok (inl w, (b1, l)) /\
    read_val (jsonR J) f (vtype v) (json_r r2) = Ok (inl w, (b2, l)) /\ holds b1 rest /\ holds b2 rest.
Proof.
  intros J k1 k2 v doc rest r1 r2 f K1 K2 W P1 P2 E R1 R2 F L.
  destruct (C59_value_round_trip_partial J k1 v K1 W P1) as (d1 & E1 & G1).
  destruct (C59_value_round_trip_partial J k2 v K2 W P2) as (d2 & E2 & G2).
  assert (d1 = doc) by congruence. assert (d2 = doc) by congruence. subst d1 d2.
  destruct (G1 r1 rest f R1 F L) as (b1 & A1 & H1). destruct (G2 r2 rest f R2 F L) as (b2 & A2 & H2).
  eauto 10.
Qed.
Print Assumptions C60_chunking_partial.
(** Two cuts of one document, one read and one refused. *)
Theorem C60_chunking_refuted : exists doc r1 r2 v, benign r1 /\ benign r2 /\ content r1 = doc /\ content r2 = doc /\
  (exists s, read_val (jsonR J0) (need v) (vtype v) (json_r r1) = Ok (inl v, s)) /\
  ~ exists w s, read_val (jsonR J0) (need v) (vtype v) (json_r r2) = Ok (inl w, s).
Proof.
  exists (lit "[11,2,""ab"",""b""]"), [(lit "[11,2,""ab"",""b""]", None)], [(lit "[11,2,""ab""", None); (lit ",""b""]", None)],
    (VList STRING [VStr (lit "ab"); VStr (lit "b")]).
  split; [concrete|]. split; [concrete|]. split; [reflexivity|]. split; [reflexivity|]. split.
  - eexists. vm_compute. reflexivity.
  - intros (w & s & E). vm_compute in E. discriminate E.
Qed.
Print Assumptions C60_chunking_refuted.
