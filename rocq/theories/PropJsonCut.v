(** C110: JSON input that ends too early. *)
From Coq Require Import ZArith List Bool Lia String Ascii.
From Coq Require Import ZifyBool ZifyNat.
From Verif Require Import Base Arith Errors Transport TransportProofs Proto Values WfDec Strconv JsonText JsonTextProofs
  F64 GoVal Names BufIO BufRead BufReadProofs Json JsonSpec JsonWrite JsonRead JsonReadVal JsonTotal JsonCut PropJson PropJsonTotal.
Import ListNotations.
Local Open Scope list_scope.
Local Notation length := List.length.
Open Scope Z_scope.

(** ** C110 *)
Lemma readable_SI : forall k p r l, readable k p [] r -> top_stack l -> SI True (new_breader r, l).
Proof.
  intros k p r l (Be & _) Tl. split; [|exact Tl]. split; [split|]; cbn [new_breader b_rt b_err fst]; auto.
  intros _. eapply Forall_impl; [|exact Be]. cbn. tauto.
Qed.
Lemma top2 : top_stack [TopLevel; TopLevel].
Proof. exists [TopLevel]. reflexivity. Qed.

(** The text of a string, list, set, map or struct, cut anywhere, is refused. *)
Definition has_end (v : tval) : Prop :=
  match v with VStr _ | VList _ _ | VSet _ _ | VMap _ _ _ | VStruct _ => True | _ => False end.
Theorem C110_truncated_value_reported : forall J k v doc p q r f, k <> Loose -> wf v -> plain_val J k v -> has_end v ->
  write_val (jsonW J) v (json_w (MkWt [] [])) = Ok (None, (MkWt doc [], [TopLevel; TopLevel])) ->
  doc = p ++ q -> q <> [] -> readable k p [] r -> (need v <= f)%nat ->
  exists e s', read_val (jsonR J) f (vtype v) (json_r r) = Ok (inr e, s').
Proof.
  intros J k v doc p q r f Kl W P H E D Q R L.
  assert (doc = vtext J v).
  { pose proof (write_val_text J v W TopLevel [TopLevel] eq_refl []) as X. cbn [sep app] in X. unfold json_w in E. congruence. }
  pose proof (readable_SI k p r _ R top2) as S. apply readable_view in R.
  pose proof (cut_val J k Kl v W P TopLevel [TopLevel] f (new_breader r) 0 p q eq_refl L R S) as X.
  cbn [sep app] in X. rewrite <- H0 in X. specialize (X D Q). destruct v; try contradiction; exact X.
Qed.
Print Assumptions C110_truncated_value_reported.
(** A number, double or boolean on its own is refused or read as what is there, with nothing left. *)
Theorem C110_truncated_scalar : forall J k v doc p q r f, k <> Loose -> wf v -> plain_val J k v ->
  write_val (jsonW J) v (json_w (MkWt [] [])) = Ok (None, (MkWt doc [], [TopLevel; TopLevel])) ->
  doc = p ++ q -> q <> [] -> readable k p [] r -> (need v <= f)%nat ->
  (exists e s', read_val (jsonR J) f (vtype v) (json_r r) = Ok (inr e, s')) \/
  (exists w b, read_val (jsonR J) f (vtype v) (json_r r) = Ok (inl w, (b, [TopLevel; TopLevel])) /\ holds b []).
Proof.
  intros J k v doc p q r f Kl W P E D Q R L.
  assert (doc = vtext J v).
  { pose proof (write_val_text J v W TopLevel [TopLevel] eq_refl []) as X. cbn [sep app] in X. unfold json_w in E. congruence. }
  pose proof (readable_SI k p r _ R top2) as S. apply readable_view in R.
  pose proof (cutv_ends J k v (cut_val J k Kl v) W P TopLevel [TopLevel] f (new_breader r) 0 p q eq_refl L R S) as X.
  cbn [sep app] in X. rewrite <- H in X. destruct (X D Q) as [F|(a & s' & E1 & Sp)]; [now left|]. right.
  destruct (spent_inv _ _ _ Sp) as (b & prev & -> & V & _). exists a, b. split; [exact E1|].
  exact (view_holds _ _ _ _ _ V).
Qed.
Print Assumptions C110_truncated_scalar.

(** Of an integer on its own every cut but the empty one is read, as the digits that are left. *)
Lemma numeric_prefix : forall p q, numeric (p ++ q) -> p <> [] -> numeric p.
Proof.
  intros p q (_ & N1 & N2 & x & R) Pn. destruct p as [|c p]; [congruence|]. split; [discriminate|].
  split; [exact N1|]. split; [exact N2|]. rewrite num_run_app in R.
  destruct (num_run (c :: p) false true false) as [y|]; [eauto|discriminate].
Qed.
Theorem C110_integers_refuted : forall J k z p q r f, k <> Loose -> in_s 64 z -> FormatInt z = p ++ q ->
  p <> [] -> readable k p [] r ->
  exists b, read_val (jsonR J) (S f) I64 (json_r r) = Ok (inl (VI64 (fst (ParseInt p 64))), (b, [TopLevel; TopLevel])).
Proof.
  intros J k z p q r f Kl Hz E Pn R. apply readable_view in R.
  pose proof (numeric_format z Hz) as N. rewrite E in N. apply numeric_prefix in N; [|exact Pn].
  destruct (ParseNum_view J fst TopLevel false p k (new_breader r) 0 [] [] [TopLevel]) as (b' & p' & E1 & _);
    [now left|cbn [sep app]; rewrite app_nil_r; exact R|exact N|exact I|].
  exists b'. change (read_val (jsonR J) (S f) I64) with (v <-- hlift (ReadI64 J) ;; hret (VI64 v)).
  unfold hbind, hlift, ReadI64, json_r. rewrite E1. cbn [obind after_value]. reflexivity.
Qed.
Print Assumptions C110_integers_refuted.
Example C110_integer_ex : in_s 64 (-12345) /\ FormatInt (-12345) = lit "-12" ++ lit "345" /\
  readable Short (lit "-12") [] [(lit "-12", None)] /\ fst (ParseInt (lit "-12") 64) = -12 /\
  fst (ParseInt (lit "-") 64) = 0.
Proof.
  split; [unfold in_s; lia|]. split; [reflexivity|]. split; [|split; reflexivity].
  apply one_chunk; [discriminate|cbn; lia|reflexivity].
Qed.
(** No text at all is read as false. *)
Theorem C110_boolean_refuted : forall J f, exists s,
  read_val (jsonR J) (S f) BOOL (json_r []) = Ok (inl (VBool false), s).
Proof. intros J f. eexists. vm_compute. reflexivity. Qed.
Print Assumptions C110_boolean_refuted.

(** A message, cut anywhere, is refused by ReadMessageBegin, by the reading of its value or by
    ReadMessageEnd, also if the value is a number. *)
Definition read_message (J : jenv) (f : nat) (t : Z) : hop jr (bytes * Z * Z * tval) :=
  h <-- hlift (rMessageBegin (jsonR J)) ;; v <-- read_val (jsonR J) f t ;; _ <-- hdo (rMessageEnd (jsonR J)) ;; hret (h, v).
Section Message.
Variable J : jenv.
Variable k : mode.
Hypothesis Kl : k <> Loose.
Lemma envelope_cut : forall c l name t id b prev p q, text_ok J k name -> in_u 8 t -> in_s 32 id ->
  view k b prev p [] -> SI True (b, c :: l) -> sep c ++ message_text J name t id = p ++ q -> q <> [] ->
  ends3 k (jReadMessageBegin J (b, c :: l)) (InList :: c :: l).
Proof.
  intros c l name t id b prev p q [Hn Fi] U Hid V S E Q. unfold jReadMessageBegin.
  assert (H1 : in_s 64 1) by (unfold in_s; lia).
  assert (Ht : in_s 64 t) by (unfold in_u, in_s in *; lia).
  assert (Hid64 : in_s 64 id) by (apply (in_s_64 32); [lia|assumption]).
  unfold message_text in E.
  destruct (ListBegin_cut k Kl c l _ b prev p q V S E Q) as [(a & e & s' & F)|(b1 & p1 & E1 & V1 & T1 & S1)].
  { rewrite F. cbn [obind]. left. destruct a; eexists _, _, _; reflexivity. }
  rewrite E1. cbn [obind]. clear E.
  destruct (cut_app _ _ _ _ T1) as [(p2 & -> & E2)|(q1 & E2 & Q1 & _)].
  2:{ destruct (ReadI64_cut J k Kl ListFirst (c :: l) 1 b1 91 p1 q1 H1 V1 S1 E2 Q1) as [_ F].
      destruct (rconv_fails (wraps 32) _ _ (F (or_intror (le_n 1)))) as (a & e & s' & F1).
      fold (ReadI32 J) in F1. rewrite F1. cbn [obind]. left. eexists _, _, _. reflexivity. }
  unfold ReadI32 at 1.
  destruct (rconv_view J k (wraps 32) ListFirst 1 b1 91 p2 [] (c :: l) (rdy k Kl _ _) H1 eq_refl V1) as (b2 & pr2 & E3 & V2);
    [eapply delim_prefix; [|exact E2]; cbn; tauto|].
  pose proof (ret_SI _ _ _ _ _ _ (i32_ret True J) S1 E3) as S2. rewrite E3. cbn [obind after_value] in *.
  change (1 =? 1) with true. cbv iota. unfold read_envelope. clear E3 T1.
  rewrite app_assoc in E2. destruct (cut_app _ _ _ _ E2) as [(p3 & -> & E4)|(q1 & E4 & Q1 & _)].
  2:{ destruct (ReadString_cut k Kl (j_style J) InList (c :: l) name b2 pr2 p2 q1 Hn Fi V2 S2 E4 Q1) as (a & e & s' & F).
      rewrite F. cbn [obind]. left. eexists _, _, _. reflexivity. }
  destruct Hn as (cs & Fs & ->). rewrite <- app_assoc in V2.
  destruct (ReadString_view (j_style J) InList cs k b2 pr2 p3 [] (c :: l) Fs Fi (rdy k Kl _ _) V2) as (b3 & E5 & V3);
    [eapply nows_prefix; [|exact E4]; reflexivity|].
  pose proof (ret_SI _ _ _ _ _ _ (string_ret True) S2 E5) as S3. rewrite E5. cbn [obind after_value] in *.
  rewrite app_assoc in E4. destruct (cut_app _ _ _ _ E4) as [(p4 & -> & E6)|(q1 & E6 & Q1 & _)].
  2:{ destruct (ReadI64_cut J k Kl InList (c :: l) t b3 34 p3 q1 Ht V3 S3 E6 Q1) as [Ed _].
      apply (rconv_ends k (wrapu 8)) in Ed. fold (ReadByte J) in Ed.
      destruct Ed as [(a & e & s' & F)|(a & s' & F & Sp)]; rewrite F; cbn [obind].
      - left. eexists _, _, _. reflexivity.
      - destruct (rconv_fails (wraps 32) _ _ (ReadI64_spent J k Kl _ _ _ Sp)) as (a2 & e2 & s2 & F2).
        fold (ReadI32 J) in F2. rewrite F2. cbn [obind]. left. eexists _, _, _. reflexivity. }
  unfold ReadByte. rewrite <- app_assoc in V3.
  destruct (rconv_view J k (wrapu 8) InList t b3 34 p4 [] (c :: l) (rdy k Kl _ _) Ht) as (b4 & pr4 & E7 & V4);
    [unfold wrapu; unfold in_u in U; now apply Z.mod_small|exact V3|eapply delim_prefix; [|exact E6]; cbn; tauto|].
  pose proof (ret_SI _ _ _ _ _ _ (byte_ret True J) S3 E7) as S4. rewrite E7. cbn [obind after_value] in *.
  destruct (ReadI64_cut J k Kl InList (c :: l) id b4 pr4 p4 q Hid64 V4 S4 E6 Q) as [Ed _].
  apply (rconv_ends k (wraps 32)) in Ed. fold (ReadI32 J) in Ed.
  destruct Ed as [(a & e & s' & F)|(a & s' & F & Sp)]; rewrite F; cbn [obind].
  - left. eexists _, _, _. reflexivity.
  - right. eexists _, _. split; [reflexivity|exact Sp].
Qed.
End Message.
Theorem C110_truncated_message_reported : forall J k name t id v doc p q r f, k <> Loose ->
  text_ok J k name -> in_u 8 t -> in_s 32 id -> wf v -> plain_val J k v ->
  (wMessageBegin (jsonW J) name t id >>> write_val (jsonW J) v >>> wMessageEnd (jsonW J)) (json_w (MkWt [] [])) =
    Ok (None, (MkWt doc [], [TopLevel; TopLevel])) ->
  doc = p ++ q -> q <> [] -> readable k p [] r -> (need v <= f)%nat ->
  exists e s', read_message J f (vtype v) (json_r r) = Ok (inr e, s').
Proof.
  intros J k name t id v doc p q r f Kl Hn Ht Hid W P E D Q R L.
  assert (Ed : doc = message_text J name t id ++ (sep InList ++ vtext J v) ++ [93]).
  { assert (X : emits (wMessageBegin (jsonW J) name t id >>> write_val (jsonW J) v >>> wMessageEnd (jsonW J)) [TopLevel; TopLevel]
       (message_text J name t id ++ ([44] ++ vtext J v) ++ [93]) [TopLevel; TopLevel]).
    { eapply emits_seq; [exact (message_emits J name t id TopLevel [TopLevel] Ht)|].
      eapply emits_seq; [exact (write_val_text J v W InList [TopLevel; TopLevel] eq_refl)|].
      apply emits_list_end. }
    specialize (X []). cbn [app] in X. unfold json_w in E. cbn [sep app]. congruence. }
  pose proof (readable_SI k p r _ R top2) as S. apply readable_view in R. rewrite D in Ed. symmetry in Ed.
  pose proof (need_pos v). unfold read_message. change (rMessageBegin (jsonR J)) with (jReadMessageBegin J).
  change (rMessageEnd (jsonR J)) with ParseListEnd. unfold json_r.
  destruct (cut_app _ _ _ _ Ed) as [(p2 & -> & E2)|(q1 & E2 & Q1 & _)].
  - destruct (MessageBegin_view J k TopLevel name t id (new_breader r) 0 p2 [] [TopLevel] Kl Hn Ht Hid R) as (b1 & p1 & E1 & V1);
      [eapply delim_prefix; [|exact E2]; cbn; tauto|].
    pose proof (ret_SI _ _ _ _ _ _ (j_message_ret True J) S E1) as S1.
    rewrite (hbind_ok _ _ _ _ _ _ _ (lift_ok _ _ _ _ _ E1)).
    destruct (cut_app _ _ _ _ E2) as [(p3 & -> & E4)|(q1 & E4 & Q1 & _)].
    + destruct (val_whole J k Kl v W P InList [TopLevel; TopLevel] f b1 p1 p3 _ q eq_refl L V1 S1 E4) as (b2 & pr2 & E5 & V2 & S2).
      { cbn; tauto. }
      rewrite (hbind_ok _ _ _ _ _ _ _ E5). apply hfails_bind.
      assert (p3 = []) as ->.
      { destruct p3 as [|x p3]; [reflexivity|]. cbn [app] in E4. injection E4 as _ E4. symmetry in E4. apply app_eq_nil in E4. tauto. }
      eapply end_spent. eapply at_spent; [exact V2|exact S2].
    + eapply hends_bind_fails; [exact (cutv_ends J k v (cut_val J k Kl v) W P InList _ f b1 p1 p2 q1 eq_refl L V1 S1 E4 Q1)|].
      intros a s' Sp. apply hfails_bind. eapply end_spent. exact Sp.
  - pose proof (envelope_cut J k Kl TopLevel [TopLevel] name t id (new_breader r) 0 p q1 Hn Ht Hid R S E2 Q1) as X.
    apply lift_ends in X. eapply hends_bind_fails; [exact X|]. intros h s' Sp.
    eapply hends_bind_fails; [apply (spent_val J k Kl f (vtype v) s' InList [TopLevel; TopLevel]); [lia|exact Sp]|].
    intros a s2 Sp2. apply hfails_bind. eapply end_spent. exact Sp2.
Qed.
Print Assumptions C110_truncated_message_reported.

(** All hypotheses, for a value of every kind cut behind 40 of its 164 bytes. *)
Example C110_case : wf val59 /\ plain_val J0 Short val59 /\ has_end val59 /\
  write_val (jsonW J0) val59 (json_w (MkWt [] [])) = Ok (None, (MkWt doc59 [], [TopLevel; TopLevel])) /\
  skipn 40 doc59 <> [] /\ readable Short (firstn 40 doc59) [] [(firstn 8 doc59, None); (firstn 32 (skipn 8 doc59), None)] /\
  match read_val (jsonR J0) 30 STRUCT (json_r [(firstn 8 doc59, None); (firstn 32 (skipn 8 doc59), None)]) with
  | Ok (inr e, _) => e = EProtocol INVALID_DATA
  | _ => False
  end.
Proof.
  destruct C59_value as (W & P & _ & E & _). split; [exact W|]. split; [exact P|]. split; [exact I|]. split; [exact E|].
  split; [vm_compute; discriminate|]. split.
  { split; [concrete|]. split; [reflexivity|]. split; [vm_compute; lia|]. repeat (constructor; [vm_compute; reflexivity|]). constructor. }
  vm_compute. reflexivity.
Qed.
(** A message with a number cut within it. *)
Example C110_message_case :
  let doc := lit "[1,""add"",2,7,12345]" in
  (wMessageBegin (jsonW J0) (lit "add") 2 7 >>> write_val (jsonW J0) (VI32 12345) >>> wMessageEnd (jsonW J0)) (json_w (MkWt [] [])) =
    Ok (None, (MkWt doc [], [TopLevel; TopLevel])) /\
  text_ok J0 Short (lit "add") /\ readable Short (firstn 16 doc) [] [(firstn 16 doc, None)] /\
  match read_message J0 5 I32 (json_r [(firstn 16 doc, None)]) with
  | Ok (inr _, _) => True
  | _ => False
  end.
Proof.
  cbv zeta. split; [concrete|]. split; [split; [now apply ascii_utf8|exact I]|]. split; [|vm_compute; exact I].
  apply one_chunk; [discriminate|vm_compute; lia|reflexivity].
Qed.
