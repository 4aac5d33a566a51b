(** Generated structs over TSimpleJSONProtocol: the text of a value, and that it is written and read. *)
From Coq Require Import ZArith List Bool Lia String.
From Coq Require Import ZifyBool ZifyNat.
From Verif Require Import Base Arith Errors Transport TransportProofs Proto Values Strconv JsonText JsonTextProofs
  F64 TField GoVal Names Compare TList TSet TMap TFieldProofs Gen GenSpec GenProofs GenRound
  BufIO BufRead BufReadProofs Json JsonSpec JsonWrite JsonRead JsonReadVal.
Import ListNotations.
Local Open Scope list_scope.
Local Notation length := List.length.
Open Scope Z_scope.

(** ** The text *)
Definition mem_of (ms : list member) (id : Z) : option member := find (fun m => m_id m =? id) ms.
Definition mem_name (ms : list member) (id : Z) : bytes :=
  match mem_of ms id with Some m => m_name m | None => [] end.
Definition mem_ty (ms : list member) (id : Z) : ty :=
  match mem_of ms id with Some m => m_ty m | None => TyBool end.
(** [{"name":v, ...}], [[type,size,v,...]], [[keytype,valuetype,size,k,v,...]]; binaries in base64.
    Types are numbers. *)
Fixpoint stext (J : jenv) (t : ty) (w : tval) : bytes :=
  match w, t with
  | VBool b, _ => lit (if b then "true" else "false")
  | (VByte z | VI16 z | VI32 z | VI64 z), _ => FormatInt z
  | VDouble d, _ => double_text J d
  | VStr s, TyBinary => quoted (b64_encode s)
  | VStr s, _ => json_quote (j_style J) s
  | VList _ l, TyList e | VSet _ l, TySet e =>
    [91] ++ FormatInt (type_to_enum e) ++ [44] ++ FormatInt (Z.of_nat (length l)) ++
    commas (map (stext J e) l) ++ [93]
  | VMap _ _ l, TyMap a e =>
    [91] ++ FormatInt (type_to_enum a) ++ [44] ++ FormatInt (type_to_enum e) ++ [44] ++
    FormatInt (Z.of_nat (length l)) ++
    flat_map (fun kv => 44 :: stext J a (fst kv) ++ 44 :: stext J e (snd kv)) l ++ [93]
  | VStruct fs, TyStruct _ ms =>
    [123] ++
    tl (flat_map (fun f => [44] ++ json_quote (j_style J) (mem_name ms (fst f)) ++ [58] ++
                           stext J (mem_ty ms (fst f)) (snd f)) fs) ++
    [125]
  | _, _ => []
  end.
Definition sfield (J : jenv) (ms : list member) (f : Z * tval) : bytes :=
  json_quote (j_style J) (mem_name ms (fst f)) ++ [58] ++ stext J (mem_ty ms (fst f)) (snd f).
(** Fields in an object whose context is [c]. *)
Definition sfields (J : jenv) (ms : list member) (c : ctx) (fs : list (Z * tval)) : bytes :=
  match fs with [] => [] | _ => sep c ++ tl (flat_map (fun f => 44 :: sfield J ms f) fs) end.
Lemma stext_struct : forall J name ms fs, stext J (TyStruct name ms) (VStruct fs) = [123] ++ sfields J ms ObjFirst fs ++ [125].
Proof. intros J name ms [|f fs]; reflexivity. Qed.
Lemma sfields_cons : forall J ms c f fs, sfields J ms c (f :: fs) = sep c ++ sfield J ms f ++ sfields J ms NextKey fs.
Proof.
  intros J ms c f fs. unfold sfields. cbn [flat_map tl app]. f_equal. f_equal.
  destruct fs as [|g fs]; [reflexivity|]. reflexivity.
Qed.

Lemma mem_of_in : forall ms m, NoDup (map m_id ms) -> In m ms -> mem_of ms (m_id m) = Some m.
Proof.
  unfold mem_of. induction ms as [|n ms IH]; intros m Nd Hm; [destruct Hm|]. cbn [find map] in *.
  inversion Nd as [|? ? Nn Nd']; subst. destruct Hm as [->|Hm]; [now rewrite Z.eqb_refl|].
  destruct (Z.eqb_spec (m_id n) (m_id m)) as [E|_]; [|auto]. destruct Nn. rewrite E. now apply in_map.
Qed.
Lemma mem_of_some : forall ms id m, mem_of ms id = Some m -> In m ms /\ m_id m = id.
Proof. intros ms id m H. apply find_some in H. destruct H as [H E]. apply Z.eqb_eq in E. auto. Qed.

(** ** Writing *)
Section Write.
Variable J : jenv.
Variable x : ext.
Let W := simpleW J.

Lemma emits_wrap : forall m l t l', emits m l t l' -> emits (wwrap m) l t l'.
Proof. intros m l t l' H o. apply ww. apply H. Qed.
Lemma tte_u8 : forall t, wrapu 8 (type_to_enum t) = type_to_enum t.
Proof. now intros []. Qed.
Lemma emits_num : forall z c l, is_key c = false ->
  emits (OutputI64 J z) (c :: l) (sep c ++ FormatInt z) (after_value c :: l).
Proof. intros z c l K. eapply emits_eq; [apply emits_i64|]. unfold key_quote. now rewrite K. Qed.

Lemma simple_write_all :
  (forall t v w, wireof x t v w -> schema_ok t -> forall f c l, (need w <= f)%nat -> is_key c = false ->
     emits (gwrite W x f t v) (c :: l) (sep c ++ stext J t w) (after_value c :: l)) /\
  (forall t vs ws, wireofs x t vs ws -> schema_ok t -> forall f l, (lneed ws <= f)%nat ->
     emits (wseqs (map (gwrite W x f t) vs)) (InList :: l) (commas (map (stext J t) ws)) (InList :: l) /\
     length ws = length vs) /\
  (forall k v es ws, wireofm x k v es ws -> schema_ok k -> schema_ok v -> forall f l, (mneed ws <= f)%nat ->
     emits (wseqs (map (fun kv => gwrite W x f k (fst kv) >>> gwrite W x f v (snd kv)) es)) (InList :: l)
       (flat_map (fun kv => 44 :: stext J k (fst kv) ++ 44 :: stext J v (snd kv)) ws) (InList :: l) /\
     length ws = length es) /\
  (forall attrs sms fs, wireoff x attrs sms fs -> forall ms, (forall m, In m sms -> mem_of ms (m_id m) = Some m) ->
     (forall m, In m sms -> schema_ok (m_ty m)) -> forall f c l, (fneed fs <= f)%nat -> is_key c = true ->
     exists c', emits (wseqs (map (fun m => gwrite_field W x f m (attribute attrs (m_id m))) sms))
       (c :: l) (sfields J ms c fs) (c' :: l)).
Proof.
  apply wireof_mut.
  Ltac scw L := intros; match goal with |- emits (gwrite _ _ ?f0 _ _) _ _ _ =>
      let g := fresh "g" in destruct f0 as [|g]; [cbn [need] in *; lia|] end;
    apply emits_wrap; cbn [stext]; now apply L.
  - intros b _ f c l N K. destruct f as [|f]; [cbn in N; lia|]. apply emits_wrap. eapply emits_eq; [apply emits_bool|].
    unfold key_quote. now rewrite K.
  - scw emits_num.
  - scw emits_num.
  - scw emits_num.
  - scw emits_num.
  - scw emits_f64.
  - scw emits_str.
  - scw emits_sbinary.
  - intros tag n cs z Hz _ f c l N K. destruct f as [|f]; [cbn in N; lia|]. cbn [gwrite stext].
    rewrite Z.eqb_refl, Arith.wraps_id by (auto; lia). apply emits_wrap. now apply emits_num.
  - intros t a et vs ws Hl H IH So f c l N K. destruct f as [|f]; [cbn in N; lia|]. inversion So; subst. cbn [need] in N.
    destruct (IH ltac:(assumption) f (c :: l)) as [E L]; [unfold lneed; lia|].
    cbn [gwrite stext any_len]. eapply emits_eq.
    + eapply emits_seq; [apply emits_wrap, emits_elem_list|]. eapply emits_seq; [exact E|apply emits_wrap, emits_list_end].
    + rewrite tte_u8, L. now rewrite <- !app_assoc.
  - intros t a et size vs ws Hs Hl H IH So f c l N K. destruct f as [|f]; [cbn in N; lia|]. inversion So; subst. cbn [need] in N.
    destruct (IH ltac:(assumption) f (c :: l)) as [E L]; [unfold lneed; lia|].
    assert (SL : set_Len size vs = Z.of_nat (length ws)).
    { rewrite L. unfold set_Len. destruct vs; [|reflexivity]. destruct Hs; [congruence|assumption]. }
    cbn [gwrite stext any_len]. rewrite SL. eapply emits_eq.
    + eapply emits_seq; [apply emits_wrap, emits_elem_list|]. eapply emits_seq; [exact E|apply emits_wrap, emits_list_end].
    + rewrite tte_u8. now rewrite <- !app_assoc.
  - intros k v a kt vt size l0 b es ws He Hm Hl H IH So f c l N K. destruct f as [|f]; [cbn in N; lia|]. inversion So; subst.
    cbn [need] in N. destruct (IH ltac:(assumption) ltac:(assumption) f (c :: l)) as [E L]; [unfold mneed; lia|].
    cbn [gwrite stext any_len]. rewrite Hm, <- L.
    assert (Wn : wraps 32 (Z.of_nat (length ws)) = Z.of_nat (length ws)).
    { apply Arith.wraps_id; [lia|]. unfold in_s. lia. }
    eapply emits_eq.
    + eapply emits_seq.
      * apply emits_wrap. unfold W, simpleW. cbn [wMapBegin].
        eapply emits_seq; [apply emits_list_begin|]. eapply emits_seq; [apply emits_num; reflexivity|].
        eapply emits_seq; apply emits_num; reflexivity.
      * cbn [after_value]. eapply emits_seq; [|apply emits_wrap, emits_list_end].
        intros o. rewrite He. cbn [obind]. apply E.
    + rewrite !tte_u8, Wn. cbn [sep after_value]. repeat (progress (cbn [app]; rewrite <- ?app_assoc)). reflexivity.
  - intros name ms a fc attrs fs H IH So f c l N K. destruct f as [|f]; [cbn in N; lia|].
    inversion So as [| | | | | | | | | | | |? ? Mo Sm]; subst. cbn [need] in N.
    destruct (IH ms) with (f := f) (c := ObjFirst) (l := c :: l) as (c' & E).
    { intros m Hm. apply mem_of_in; [apply Mo|]. now apply in_sorted. }
    { intros m Hm. apply Sm. now apply in_sorted. }
    { unfold fneed. lia. }
    { reflexivity. }
    cbn [gwrite]. rewrite str_eq_refl, stext_struct. eapply emits_eq.
    + eapply emits_seq; [apply emits_wrap, emits_obj_begin|]. eapply emits_seq; [exact E|].
      eapply emits_seq; [apply emits_wrap, emits_nop|apply emits_wrap, emits_obj_end].
    + now rewrite <- !app_assoc.
  - intros t _ f l _. split; [apply emits_nop|reflexivity].
  - intros t v w vs ws H1 IH1 H2 IH2 So f l N. unfold lneed in *. cbn [map max_list fold_right] in N.
    fold (max_list (map need ws)) in N. destruct (IH2 So f l) as [E L]; [lia|].
    split; [|cbn; congruence]. cbn [map wseqs]. unfold commas. cbn [map flat_map].
    eapply emits_seq; [exact (IH1 So f InList l ltac:(lia) eq_refl)|exact E].
  - intros k v _ _ f l _. split; [apply emits_nop|reflexivity].
  - intros k v a b wa wb es ws H1 IH1 H2 IH2 H3 IH3 Sk Sv f l N. unfold mneed in *. cbn [map max_list fold_right fst snd] in N.
    match type of N with context [fold_right Nat.max 0%nat ?X] => fold (max_list X) in N end.
    destruct (IH3 Sk Sv f l) as [E L]; [lia|]. split; [|cbn; congruence]. cbn [map wseqs flat_map fst snd].
    eapply emits_eq; [eapply emits_seq; [eapply emits_seq; [exact (IH1 Sk f InList l ltac:(lia) eq_refl)|
      exact (IH2 Sv f InList l ltac:(lia) eq_refl)]|exact E]|].
    cbn [sep app]. now rewrite <- !app_assoc.
  - intros attrs ms _ _ f c l _ _. exists c. cbn [map wseqs sfields]. apply emits_nop.
  - intros attrs m sms fs Ng H IH ms Hm So f c l N K.
    destruct (IH ms) with (f := f) (c := c) (l := l) as (c' & E); try assumption.
    { intros; apply Hm; now right. }
    { intros; apply So; now right. }
    exists c'. cbn [map wseqs]. destruct f as [|f]; [destruct fs; cbn in N; lia|].
    apply (emits_seq _ _ _ [] (c :: l) (sfields J ms c fs) (c' :: l)); [|exact E]. cbn [gwrite_field]. rewrite Ng. apply emits_nop.
  - intros attrs m sms w fs Ng Hid H IH H2 IH2 ms Hm So f c l N K.
    cbn [fneed fold_right snd] in N. fold (fneed fs) in N.
    destruct (IH2 ms) with (f := f) (c := NextKey) (l := l) as (c' & E); try assumption; try reflexivity; try lia.
    { intros; apply Hm; now right. }
    { intros; apply So; now right. }
    exists c'. cbn [map wseqs]. destruct f as [|f]; [lia|]. rewrite sfields_cons.
    eapply emits_eq; [eapply emits_seq; [|exact E]|].
    + cbn [gwrite_field]. rewrite Ng. eapply emits_seq; [apply emits_wrap, emits_str|].
      replace (after_value c) with NextValue by (destruct c; try discriminate K; reflexivity).
      eapply emits_seq; [apply emits_wrap; apply (IH (So m (or_introl eq_refl)) f NextValue l); [lia|reflexivity]|].
      apply emits_wrap, emits_nop.
    + unfold sfield, mem_name, mem_ty. cbn [fst snd]. rewrite (Hm m (or_introl eq_refl)). cbn [sep].
      rewrite app_nil_r. now rewrite <- !app_assoc.
Qed.
End Write.

(** ** Reading *)
Section Read.
Variable J : jenv.
Variable x : ext.
Variable M : Z.
Variable cf : nat.
Let R := simpleR J.
Lemma Ks : Strict <> Loose.
Proof. discriminate. Qed.

(** What is read back: doubles are formatted and parsed back, strings and the names of the members are UTF-8, the elements of containers
    are not binaries, and every field is one of the members. *)
Fixpoint splain (t : ty) (w : tval) : Prop :=
  match w, t with
  | VDouble d, _ => float_ok J d
  | VStr s, TyBinary => is_bytes s
  | VStr s, _ => text_ok J Strict s
  | VList et l, TyList e | VSet et l, TySet e => et = type_to_enum e /\ all (splain e) l
  | VMap kt vt l, TyMap a e =>
    kt = type_to_enum a /\ vt = type_to_enum e /\ all (fun kv => splain a (fst kv) /\ splain e (snd kv)) l
  | VStruct fs, TyStruct _ ms =>
    all (fun f => mem_of ms (fst f) <> None /\ text_ok J Strict (mem_name ms (fst f)) /\
                  splain (mem_ty ms (fst f)) (snd f)) fs
  | _, _ => True
  end.

(** Behind a comma, too, something is buffered. *)
Lemma strict_un : forall b prev c s rest, view Strict b prev (c :: s) rest -> prev = 44 \/ tight prev c = true ->
  exists u, b_un b = c :: u.
Proof.
  intros b prev c s rest V T. eapply un_head; [eassumption|]. intros U.
  pose proof (v_safe _ _ _ _ _ V Ks) as Sf. rewrite U in Sf. cbn [length] in Sf.
  destruct (b_rt b) as [|[y e] r]; cbn [ends] in Sf; inversion Sf as [|? ? H _]; subst;
    unfold tpos in H; cbn [nth_error nth behind] in H; cbv zeta in H;
    (destruct T as [->|T]; [rewrite orb_true_r in H|rewrite T in H]; discriminate).
Qed.

Lemma sFieldBegin_view : forall c name b prev s rest l, is_key c = true -> (c = ObjFirst -> prev = 123) ->
  text_ok J Strict name -> view Strict b prev (sep c ++ json_quote (j_style J) name ++ 58 :: s) rest ->
  exists b', sReadFieldBegin (b, c :: l) = Ok ((name, GENERIC, -1), None, (b', NextValue :: l)) /\
             view Strict b' 34 (58 :: s) rest.
Proof.
  intros c name b prev s rest l K Hp [(cs & F & ->) Fi] V.
  pose proof (unquote_quote (j_style J) cs F) as U. rewrite json_quote_utf8 in * by assumption.
  change (quote_text (j_style J) cs) with (quoted (flat_map (esc (j_style J)) cs)) in *.
  destruct (pre_view Strict b prev c l _ rest V eq_refl (rdy Strict Ks _ _)) as (b1 & p1 & E1 & V1 & Hp1).
  unfold sReadFieldBegin, pre. rewrite E1. cbn [obind]. unfold quoted in V1. cbn [app] in V1.
  rewrite <- app_assoc in V1. cbn [app] in V1.
  destruct (strict_un _ _ _ _ _ V1) as [u Hu].
  { destruct c; try discriminate K; cbn [sep last] in Hp1; subst p1; [right|now left]. rewrite (Hp eq_refl). apply tight_brace. }
  rewrite Hu. cbn iota.
  assert (V2 : view Strict (b_advance 1 b1) 34 (flat_map (esc (j_style J)) cs ++ 34 :: 58 :: s) rest).
  { apply (advance_view Strict b1 p1 [34]); [exact V1|]. rewrite Hu. cbn. lia. }
  destruct (string_body_view (flat_map (esc (j_style J)) cs) (utf8 cs) Strict (b_advance 1 b1) 34 (58 :: s) rest) as (b3 & -> & V3);
    [now apply body_escs| |exact U|exact V2|].
  { eapply fits_le; [exact Fi|]. unfold quoted. rewrite !app_length. lia. }
  cbn [obind].
  destruct (post_view _ (utf8 cs, GENERIC, -1) Strict b3 34 c l (58 :: s) rest V3 eq_refl) as (b4 & E4 & V4).
  exists b4. split; [|exact V4]. rewrite E4. destruct c; try discriminate K; reflexivity.
Qed.
Lemma sFieldEnd_view : forall c b prev s rest l, is_key c = true -> view Strict b prev (125 :: s) rest ->
  exists b', sReadFieldBegin (b, c :: l) = Ok (([], STOP, 0), None, (b', c :: l)) /\ view Strict b' prev (125 :: s) rest.
Proof.
  intros c b prev s rest l K V. destruct (skip_same _ _ _ _ _ V eq_refl) as [V1 U1].
  exists (skip_ws b). split; [|exact V1]. unfold sReadFieldBegin, pre, ParsePreValue. cbv zeta.
  destruct (b_un (skip_ws b)) as [|y u] eqn:U; [cbn [obind]; now rewrite U|].
  destruct (un_head _ _ _ _ _ _ V1) as [u' U']; [congruence|].
  assert (y = 125) by congruence. subst y.
  destruct c; try discriminate K; cbn [obind Z.eqb Pos.eqb]; now rewrite U.
Qed.

Lemma sMapBegin_view : forall c kt vt n b prev s rest l, in_u 8 kt -> in_u 8 vt -> in_s 64 n ->
  view Strict b prev (sep c ++ [91] ++ FormatInt kt ++ [44] ++ FormatInt vt ++ [44] ++ FormatInt n ++ s) rest -> delim (s ++ rest) ->
  exists b' prev', sReadMapBegin J (b, c :: l) = Ok ((kt, vt, n), None, (b', InList :: c :: l)) /\ view Strict b' prev' s rest.
Proof.
  intros c kt vt n b prev s rest l Hk Hv Hn V D. unfold sReadMapBegin.
  assert (H64 : forall z, in_u 8 z -> in_s 64 z) by (intros; unfold in_u, in_s in *; lia).
  destruct (ListBegin_view c Strict b prev (FormatInt kt ++ [44] ++ FormatInt vt ++ [44] ++ FormatInt n ++ s) rest l (rdy _ Ks _ _) V)
    as (b1 & -> & V1).
  { assert (L1 : forall z, in_s 64 z -> (1 <= length (FormatInt z))%nat).
    { intros z Hz. destruct (numeric_format z Hz) as [X _]. destruct (FormatInt z); [congruence|cbn; lia]. }
    pose proof (L1 kt (H64 kt Hk)). rewrite !app_length. cbn [length]. lia. }
  cbn [obind]. unfold ReadByte.
  destruct (rconv_view J Strict (wrapu 8) ListFirst kt b1 91 ([44] ++ FormatInt vt ++ [44] ++ FormatInt n ++ s) rest (c :: l)
              (rdy _ Ks _ _) (H64 kt Hk)) as (b2 & p2 & -> & V2);
    [unfold wrapu, in_u in *; apply Z.mod_small; lia|exact V1|cbn; tauto|].
  cbn [obind after_value].
  destruct (rconv_view J Strict (wrapu 8) InList vt b2 p2 ([44] ++ FormatInt n ++ s) rest (c :: l)
              (rdy _ Ks _ _) (H64 vt Hv)) as (b3 & p3 & -> & V3);
    [unfold wrapu, in_u in *; apply Z.mod_small; lia|exact V2|cbn; tauto|].
  cbn [obind after_value].
  destruct (ReadI64_view J Strict InList n b3 p3 s rest (c :: l) (rdy _ Ks _ _) Hn V3 D) as (b4 & p4 & -> & V4).
  cbn [obind]. eauto.
Qed.

(** The name of a member selects it. *)
Lemma member_lookup : forall ms m, members_ok ms -> In m ms ->
  FieldIdFromFieldName (fc_of ms) (m_name m) = m_id m /\
  f_type (FieldFromFieldId (fc_of ms) (m_id m)) = type_to_enum (m_ty m) /\
  find (fun m' => (m_id m =? m_id m') || str_eq (m_name m) (m_name m')) ms = Some m.
Proof.
  intros ms m Mo Hin. pose proof (dispatch_known ms m Mo Hin) as Dk. destruct Mo as (Ni & Nn & H).
  destruct (fields_map ms) as [Ei En].
  destruct (lookups 0 (fields_of ms)) as [L _]; [rewrite Ei; assumption|rewrite En; assumption|].
  destruct (L (F (m_name m) (type_to_enum (m_ty m)) (m_id m))) as (A & B & C & D).
  { unfold fields_of. apply in_map_iff. eauto. }
  cbn [f_id f_name f_type] in *. unfold fc_of in *. rewrite C in Dk.
  destruct D as (_ & _ & D). destruct D as [_ D]; [now apply H|].
  split; [assumption|]. split; [|assumption]. now rewrite A.
Qed.
Lemma tte_not : forall t, (type_to_enum t =? STOP) = false /\ (type_to_enum t =? VOID) = false.
Proof. now intros []. Qed.
Lemma tte_in8 : forall t, in_u 8 (type_to_enum t).
Proof. intros []; (split; [discriminate|reflexivity]). Qed.

Lemma map_inv : forall A B (f : A -> B) l y r, y :: r = map f l -> exists a l', l = a :: l' /\ y = f a /\ r = map f l'.
Proof. intros A B f [|a l] y r H; [discriminate|]. injection H as -> ->. eauto. Qed.

Definition reading (t : ty) (v : any) (w : tval) : Prop :=
  forall f c l b prev s rest, (need w <= f)%nat -> is_key c = false ->
  view Strict b prev ((sep c ++ stext J t w) ++ s) rest -> follows w (s ++ rest) ->
  exists b' prev', gread R x M cf f t (b, c :: l) = Ok (inl v, (b', after_value c :: l)) /\ view Strict b' prev' s rest.

Lemma simple_read_all :
  (forall t w0 v, reads x cf t w0 v -> schema_ok t -> forall w, w0 = canon w -> wf w -> splain t w -> reading t v w) /\
  (forall t ws0 vs, readss x cf t ws0 vs -> schema_ok t -> forall ws, ws0 = map canon ws -> all wf ws -> all (splain t) ws ->
     forall f l b prev s rest, (lneed ws <= f)%nat ->
     view Strict b prev (commas (map (stext J t) ws) ++ s) rest -> delim (s ++ rest) ->
     forall A (put : A -> any -> outcome A) p q, fills put p vs = Ok q ->
     exists b' prev', gfill (length ws) (gread R x M cf f t) put p (b, InList :: l) = Ok (inl q, (b', InList :: l)) /\
       view Strict b' prev' s rest) /\
  (forall k v ws0 vs, readsm x cf k v ws0 vs -> schema_ok k -> schema_ok v ->
     forall ws, ws0 = map (fun kv => (canon (fst kv), canon (snd kv))) ws ->
     all (fun kv => wf (fst kv) /\ wf (snd kv)) ws -> all (fun kv => splain k (fst kv) /\ splain v (snd kv)) ws ->
     forall f l b prev s rest, (mneed ws <= f)%nat ->
     view Strict b prev (flat_map (fun kv => 44 :: stext J k (fst kv) ++ 44 :: stext J v (snd kv)) ws ++ s) rest -> delim (s ++ rest) ->
     forall A (put : A -> any * any -> outcome A) p q, fills put p vs = Ok q ->
     exists b' prev',
       gfill (length ws) (a <-- gread R x M cf f k ;; b <-- gread R x M cf f v ;; hret (a, b)) put p (b, InList :: l)
         = Ok (inl q, (b', InList :: l)) /\
       view Strict b' prev' s rest) /\
  (forall ms attrs fs0 attrs', readsf x cf ms attrs fs0 attrs' -> members_ok ms -> (forall m, In m ms -> schema_ok (m_ty m)) ->
     forall fs, fs0 = map (fun f => (fst f, canon (snd f))) fs -> all (fun f => in_s 16 (fst f) /\ wf (snd f)) fs ->
     all (fun f => mem_of ms (fst f) <> None /\ text_ok J Strict (mem_name ms (fst f)) /\
                   splain (mem_ty ms (fst f)) (snd f)) fs ->
     forall f c l b prev s rest, (fneed fs <= f)%nat -> is_key c = true -> (c = ObjFirst -> prev = 123) ->
     view Strict b prev (sfields J ms c fs ++ s) rest -> delim (s ++ rest) ->
     exists b' prev' g, gread_fields R x M cf f ms attrs (b, c :: l) =
         gread_fields R x M cf (S g) ms attrs' (b', (match fs with [] => c | _ => NextKey end) :: l) /\
       view Strict b' prev' s rest /\ (fs = [] -> prev' = prev) /\ (f <= S g + length fs)%nat).
Proof.
  apply reads_mut.
  Ltac rsv E C := match goal with
    | Hw : _ = canon ?w, W : wf ?w, P : splain _ ?w, N : (need ?w <= ?f)%nat, K : is_key ?c = false,
      V : view _ ?b ?prev ((_ ++ _) ++ ?s) ?rest, D : follows ?w _ |- context [gread _ _ _ _ _ _ (_, _ :: ?l)] =>
      destruct w; cbn [canon] in Hw; try discriminate Hw; injection Hw as Hw;
      destruct f as [|f]; [cbn in N; lia|];
      match type of W with wf ?w0 =>
        let Rd := fresh "Rd" in let V' := fresh "V'" in let b1 := fresh "b1" in let p1 := fresh "p1" in
        destruct (rd_val_good J Strict Ks w0 W P c l K b prev s rest V D) as (b1 & p1 & Rd & V');
        exists b1, p1; split; [|exact V']; inversion Rd; subst end;
      transitivity ((v <-- hwrap (hlift E) ;; hret (C v)) (b, c :: l)); [reflexivity|];
      match goal with X : _ (b, c :: l) = Ok (_, None, _) |- _ => rewrite (hl _ _ _ _ _ _ _ X) end; reflexivity
    end.
  - intros z0 So w Hw W P f c l b prev s rest N K V D. rsv (rBool R) ABool.
  - intros z0 So w Hw W P f c l b prev s rest N K V D. rsv (rByte R) AByte.
  - intros z0 So w Hw W P f c l b prev s rest N K V D. rsv (rI16 R) AInt16.
  - intros z0 So w Hw W P f c l b prev s rest N K V D. rsv (rI32 R) AInt32.
  - intros z0 So w Hw W P f c l b prev s rest N K V D. rsv (rI64 R) AInt64.
  - intros z0 So w Hw W P f c l b prev s rest N K V D. rsv (rDouble R) AF64.
  - intros z0 So w Hw W P f c l b prev s rest N K V D. rsv (rString R) AStr.
  - intros s0 So w Hw W P f c l b prev s rest N K V D. destruct w; cbn [canon] in Hw; try discriminate Hw. injection Hw as <-.
    destruct f as [|f]; [cbn in N; lia|]. cbn [stext splain follows] in *. rewrite <- app_assoc in V.
    destruct (ReadBinary_view c s0 Strict b prev s rest l P I (rdy _ Ks _ _) V D) as (b' & E & V').
    exists b', 34. split; [|exact V']. transitivity ((v <-- hwrap (hlift (rBinary R)) ;; hret (ABytes v)) (b, c :: l)); [reflexivity|].
    rewrite (hl _ _ _ _ _ _ _ E). reflexivity.
  - intros tag n cs z So w Hw W P f c l b prev s rest N K V D. destruct w; cbn [canon] in Hw; try discriminate Hw. injection Hw as ->.
    destruct f as [|f]; [cbn in N; lia|].
    destruct (rd_val_good J Strict Ks _ W P c l K b prev s rest V D) as (b' & p' & Rd & V').
    exists b', p'. split; [|exact V']. inversion Rd; subst.
    transitivity ((v <-- hwrap (hlift (rI32 R)) ;; hret (mk_enum tag n cs v)) (b, c :: l)); [reflexivity|].
    match goal with X : _ (b, c :: l) = Ok (_, None, _) |- _ => rewrite (hl _ _ _ _ _ _ _ X) end. reflexivity.
  - intros t et ws0 vs p H IH Hp So w Hw W P f c l b prev s rest N K V D. destruct w; cbn [canon] in Hw; try discriminate Hw.
    injection Hw as -> ->. destruct f as [|f]; [cbn in N; lia|]. inversion So; subst. cbn [need] in N.
    destruct W as (Wt & Wl & Wa). destruct P as [-> P]. cbn [stext follows] in *. rename l0 into ws.
    set (items := commas (map (stext J t) ws)) in *.
    destruct (ElemList_view J Strict Ks c (type_to_enum t) (Z.of_nat (length ws)) b prev (items ++ [93] ++ s) rest l) as (b1 & p1 & E1 & V1).
    { apply tte_in8. }
    { unfold in_s. lia. }
    { repeat (rewrite <- !app_assoc in V; cbn [app] in V). exact V. }
    { unfold items, commas. destruct ws; cbn; tauto. }
    assert (Wa' : all wf ws) by (clear -Wa; induction ws; cbn in *; tauto).
    rewrite map_length in Hp.
    destruct (IH ltac:(assumption) ws eq_refl Wa' P f (c :: l) b1 p1 ([93] ++ s) rest ltac:(unfold lneed; lia) V1 ltac:(cbn; tauto)
                _ _ _ _ Hp) as (b2 & p2 & E2 & V2).
    destruct (end_view (fun c => match c with InList => true | _ => false end) 93 c InList Strict b2 p2 s rest l
                eq_refl eq_refl ltac:(lia) V2 D) as (b3 & E3 & V3).
    exists b3, 93. split; [|exact V3].
    change (('(t0, n) <-- hwrap (hlift (rListBegin R)) ;;
      l <-- gfill (Z.to_nat n) (gread R x M cf f t) (tl_Push x) (NewTList t0 n) ;;
      _ <-- hwrap (hdo (rListEnd R)) ;; hret (AList 0 (tl_et l) (tl_l l))) (b, c :: l) =
      Ok (inl (AList 0 (tl_et p) (tl_l p)), (b3, after_value c :: l))).
    rewrite (hl _ _ _ _ _ _ _ E1). cbn beta iota. rewrite Nat2Z.id.
    rewrite (hb _ _ _ _ _ _ _ E2). rewrite (hde _ _ _ _ _ E3). reflexivity.
  - intros t et ws0 vs p H IH Hp So w Hw W P f c l b prev s rest N K V D. destruct w; cbn [canon] in Hw; try discriminate Hw.
    injection Hw as -> ->. destruct f as [|f]; [cbn in N; lia|]. inversion So; subst. cbn [need] in N.
    destruct W as (Wt & Wl & Wa). destruct P as [-> P]. cbn [stext follows] in *. rename l0 into ws.
    set (items := commas (map (stext J t) ws)) in *.
    destruct (ElemList_view J Strict Ks c (type_to_enum t) (Z.of_nat (length ws)) b prev (items ++ [93] ++ s) rest l) as (b1 & p1 & E1 & V1).
    { apply tte_in8. }
    { unfold in_s. lia. }
    { repeat (rewrite <- !app_assoc in V; cbn [app] in V). exact V. }
    { unfold items, commas. destruct ws; cbn; tauto. }
    assert (Wa' : all wf ws) by (clear -Wa; induction ws; cbn in *; tauto).
    rewrite map_length in Hp.
    destruct (IH ltac:(assumption) ws eq_refl Wa' P f (c :: l) b1 p1 ([93] ++ s) rest ltac:(unfold lneed; lia) V1 ltac:(cbn; tauto)
                _ _ _ _ Hp) as (b2 & p2 & E2 & V2).
    destruct (end_view (fun c => match c with InList => true | _ => false end) 93 c InList Strict b2 p2 s rest l
                eq_refl eq_refl ltac:(lia) V2 D) as (b3 & E3 & V3).
    exists b3, 93. split; [|exact V3].
    change (('(t0, n) <-- hwrap (hlift (rSetBegin R)) ;;
      l <-- gfill (Z.to_nat n) (gread R x M cf f t) (ts_Add x cf) (NewTSet t0 n) ;;
      _ <-- hwrap (hdo (rSetEnd R)) ;; hret (ASet 0 (ts_et l) (ts_size l) (ts_l l))) (b, c :: l) =
      Ok (inl (ASet 0 (ts_et p) (ts_size p) (ts_l p)), (b3, after_value c :: l))).
    rewrite (hl _ _ _ _ _ _ _ E1). cbn beta iota. rewrite Nat2Z.id.
    rewrite (hb _ _ _ _ _ _ _ E2). rewrite (hde _ _ _ _ _ E3). reflexivity.
  - intros k v kt vt ws0 kvs p H IH Hp So w Hw W P f c l b prev s rest N K V D. destruct w; cbn [canon] in Hw; try discriminate Hw.
    injection Hw as -> -> ->. destruct f as [|f]; [cbn in N; lia|]. inversion So; subst. cbn [need] in N.
    destruct W as (Wk & Wv & Wl & Wa). destruct P as (-> & -> & P). cbn [stext follows] in *. rename l0 into ws.
    set (items := flat_map (fun kv => 44 :: stext J k (fst kv) ++ 44 :: stext J v (snd kv)) ws) in *.
    destruct (sMapBegin_view c (type_to_enum k) (type_to_enum v) (Z.of_nat (length ws)) b prev (items ++ [93] ++ s) rest l)
      as (b1 & p1 & E1 & V1).
    { apply tte_in8. }
    { apply tte_in8. }
    { unfold in_s. lia. }
    { repeat (rewrite <- !app_assoc in V; cbn [app] in V). exact V. }
    { unfold items. destruct ws; cbn; tauto. }
    assert (Wa' : all (fun kv => wf (fst kv) /\ wf (snd kv)) ws) by (clear -Wa; induction ws; cbn in *; tauto).
    rewrite map_length in Hp.
    destruct (IH ltac:(assumption) ltac:(assumption) ws eq_refl Wa' P f (c :: l) b1 p1 ([93] ++ s) rest ltac:(unfold mneed; lia)
                V1 ltac:(cbn; tauto) _ _ _ _ Hp) as (b2 & p2 & E2 & V2).
    destruct (end_view (fun c => match c with InList => true | _ => false end) 93 c InList Strict b2 p2 s rest l
                eq_refl eq_refl ltac:(lia) V2 D) as (b3 & E3 & V3).
    exists b3, 93. split; [|exact V3].
    change (('(kt, vt, n) <-- hwrap (hlift (rMapBegin R)) ;;
      l <-- gfill (Z.to_nat n) (a <-- gread R x M cf f k ;; b <-- gread R x M cf f v ;; hret (a, b))
              (fun p kv => tm_Set x cf p (fst kv) (snd kv)) (NewTMap kt vt n) ;;
      _ <-- hwrap (hdo (rMapEnd R)) ;;
      hret (AMap 0 (tm_kt l) (tm_vt l) (tm_size l) (tm_l l) (tm_b l))) (b, c :: l) =
      Ok (inl (AMap 0 (tm_kt p) (tm_vt p) (tm_size p) (tm_l p) (tm_b p)), (b3, after_value c :: l))).
    rewrite (hl _ _ _ _ _ _ _ E1). cbn beta iota. rewrite Nat2Z.id.
    rewrite (hb _ _ _ _ _ _ _ E2). rewrite (hde _ _ _ _ _ E3). reflexivity.
  - intros name ms fs0 attrs H IH So w Hw W P f c l b prev s rest N K V D. destruct w; cbn [canon] in Hw; try discriminate Hw.
    injection Hw as ->. destruct f as [|f]; [cbn in N; lia|]. inversion So as [| | | | | | | | | | | |? ? Mo Sm]; subst. cbn [need] in N.
    rewrite stext_struct in V.
    destruct (ObjectStart_view c Strict b prev (sfields J ms ObjFirst fs ++ 125 :: s) rest l (rdy _ Ks _ _)) as (b1 & E1 & V1).
    { eapply view_eq; [exact V|]. rewrite <- !app_assoc. reflexivity. }
    destruct (IH Mo Sm fs eq_refl W P f ObjFirst (c :: l) b1 123 (125 :: s) rest ltac:(unfold fneed; lia) eq_refl ltac:(auto) V1
                ltac:(cbn; tauto)) as (b2 & p2 & g & E2 & V2 & _ & _).
    set (c2 := match fs with [] => ObjFirst | _ => NextKey end) in *.
    assert (K2 : is_key c2 = true) by (unfold c2; destruct fs; reflexivity).
    destruct (sFieldEnd_view c2 b2 p2 s rest (c :: l) K2 V2) as (b3 & E3 & V3).
    destruct (end_view is_key 125 c c2 Strict b3 p2 s rest l K2 eq_refl ltac:(lia) V3 D) as (b4 & E4 & V4).
    exists b4, 125. split; [|exact V4].
    change ((_ <-- hwrap (hlift (rStructBegin R)) ;;
      attrs <-- gread_fields R x M cf f ms (map (fun m => (m_id m, m_init m)) ms) ;;
      _ <-- hwrap (hdo (rStructEnd R)) ;;
      hret (AStruct 0 name (fc_of ms) attrs)) (b, c :: l) = Ok (inl (AStruct 0 name (fc_of ms) attrs), (b4, after_value c :: l))).
    assert (Eb : rStructBegin R (b, c :: l) = Ok ([], None, (b1, ObjFirst :: c :: l))).
    { change (rStructBegin R) with ReadStructBegin. unfold ReadStructBegin. now rewrite E1. }
    rewrite (hl _ _ _ _ _ _ _ Eb).
    assert (Ef : gread_fields R x M cf f ms (map (fun m => (m_id m, m_init m)) ms) (b1, ObjFirst :: c :: l) =
                 Ok (inl attrs, (b3, c2 :: c :: l))).
    { rewrite E2, gread_fields_S. change (sReadFieldBegin) with (rFieldBegin R) in E3. rewrite (hl _ _ _ _ _ _ _ E3). reflexivity. }
    rewrite (hb _ _ _ _ _ _ _ Ef).
    rewrite (hde _ _ _ _ _ E4). reflexivity.
  - intros t So ws Hw W P f l b prev s rest N V D A put p q Hp. destruct ws; [|discriminate Hw]. cbn in Hp. injection Hp as <-.
    exists b, prev. split; [reflexivity|exact V].
  - intros t w0 v ws0 vs H1 IH1 H2 IH2 So ws Hw W P f l b prev s rest N V D A put p q Hp.
    apply map_inv in Hw. destruct Hw as (w & ws' & -> & -> & ->). destruct W as [Ww W]. destruct P as [Pw P].
    cbn [fills] in Hp. destruct (put p v) as [q1| |] eqn:E; cbn [obind] in Hp; try discriminate.
    unfold lneed in *. cbn [map max_list fold_right] in N. fold (max_list (map need ws')) in N.
    unfold commas in V. cbn [map flat_map app] in V.
    assert (D1 : delim ((commas (map (stext J t) ws') ++ s) ++ rest)).
    { unfold commas. destruct ws'; cbn; [exact D|tauto]. }
    destruct (IH1 So w eq_refl Ww Pw f InList l b prev (commas (map (stext J t) ws') ++ s) rest ltac:(lia) eq_refl) as (b1 & p1 & E1 & V1).
    { cbn [sep app]. rewrite <- app_assoc in V. exact V. }
    { now apply follows_delim. }
    destruct (IH2 So ws' eq_refl W P f l b1 p1 s rest ltac:(lia) V1 D _ _ _ _ Hp) as (b2 & p2 & E2 & V2).
    exists b2, p2. split; [|exact V2]. cbn [length gfill]. rewrite (hb _ _ _ _ _ _ _ E1).
    erewrite hb by (unfold hout; rewrite E; reflexivity). exact E2.
  - intros k v So1 So2 ws Hw W P f l b prev s rest N V D A put p q Hp. destruct ws; [|discriminate Hw]. cbn in Hp. injection Hp as <-.
    exists b, prev. split; [reflexivity|exact V].
  - intros k v wa0 wb0 a e ws0 vs H1 IH1 H2 IH2 H3 IH3 So1 So2 ws Hw W P f l b prev s rest N V D A put p q Hp.
    apply map_inv in Hw. destruct Hw as ([wa wb] & ws' & -> & Eab & ->). cbn [fst snd] in Eab. injection Eab as -> ->.
    destruct W as [[Wx Wy] W]. destruct P as [[Px Py] P]. cbn [fst snd] in *.
    cbn [fills] in Hp. destruct (put p (a, e)) as [q1| |] eqn:E; cbn [obind] in Hp; try discriminate.
    unfold mneed in *. cbn [map max_list fold_right fst snd] in N.
    match type of N with context [fold_right Nat.max 0%nat ?X] => fold (max_list X) in N end.
    set (items := flat_map (fun kv => 44 :: stext J k (fst kv) ++ 44 :: stext J v (snd kv)) ws') in *.
    assert (D1 : delim ((items ++ s) ++ rest)).
    { unfold items. destruct ws'; cbn; [exact D|tauto]. }
    destruct (IH1 So1 wa eq_refl Wx Px f InList l b prev (44 :: stext J v wb ++ items ++ s) rest ltac:(lia) eq_refl) as (b1 & p1 & E1 & V1).
    { cbn [flat_map app fst snd] in V. fold items in V. cbn [sep app]. repeat (rewrite <- !app_assoc in V; cbn [app] in V). 
      eapply view_eq; [exact V|]. repeat (rewrite <- !app_assoc; cbn [app]). reflexivity. }
    { apply follows_delim. cbn; tauto. }
    destruct (IH2 So2 wb eq_refl Wy Py f InList l b1 p1 (items ++ s) rest ltac:(lia) eq_refl) as (b2 & p2 & E2 & V2).
    { cbn [sep app]. exact V1. }
    { now apply follows_delim. }
    destruct (IH3 So1 So2 ws' eq_refl W P f l b2 p2 s rest ltac:(lia) V2 D _ _ _ _ Hp) as (b3 & p3 & E3 & V3).
    exists b3, p3. split; [|exact V3]. cbn [length gfill].
    erewrite hb.
    2:{ rewrite (hb _ _ _ _ _ _ _ E1). cbn [after_value]. rewrite (hb _ _ _ _ _ _ _ E2). reflexivity. }
    erewrite hb by (unfold hout; rewrite E; reflexivity). exact E3.
  - intros ms attrs Mo So fs Hw W P f c l b prev s rest N K Hp V D. destruct fs; [|discriminate Hw].
    destruct f as [|f]; [cbn in N; lia|]. exists b, prev, f. cbn [length]. split; [reflexivity|]. split; [exact V|]. split; [auto|lia].
  - intros ms attrs id w0 fs0 m v attrs' Hin Hid H1 IH1 H2 IH2 Mo So fs Hw W P f c l b prev s rest N K Hp V D.
    apply map_inv in Hw. destruct Hw as ([id' w] & fs' & -> & E & ->). cbn [fst snd] in E. injection E as Ei ->.
    rewrite Ei in *. clear Ei. subst id'.
    destruct W as [[Wi Ww] W]. destruct P as [(_ & Pn & Pw) P]. cbn [fst snd] in *.
    destruct f as [|f]; [cbn in N; lia|]. cbn [fneed fold_right snd] in N. fold (fneed fs') in N.
    pose proof (mem_of_in ms m (proj1 Mo) Hin) as Hm. rewrite sfields_cons in V. unfold sfield in V. cbn [fst snd] in V.
    unfold mem_name, mem_ty in *. rewrite Hm in *.
    set (more := sfields J ms NextKey fs' ++ s).
    destruct (sFieldBegin_view c (m_name m) b prev (stext J (m_ty m) w ++ more) rest l K Hp Pn) as (b1 & E1 & V1).
    { unfold more. eapply view_eq; [exact V|]. rewrite <- !app_assoc. reflexivity. }
    assert (D1 : delim (more ++ rest)).
    { unfold more. destruct fs'; cbn; [exact D|tauto]. }
    destruct (IH1 (So m Hin) w eq_refl Ww Pw f NextValue l b1 34 more rest ltac:(lia) eq_refl) as (b2 & p2 & E2 & V2).
    { cbn [sep app]. exact V1. }
    { now apply follows_delim. }
    cbn [after_value] in E2.
    destruct (IH2 Mo So fs' eq_refl W P f NextKey l b2 p2 s rest ltac:(lia) eq_refl ltac:(discriminate) V2 D)
      as (b3 & p3 & g & E3 & V3 & _ & Lg).
    exists b3, p3, g. split; [|split; [exact V3|split; [discriminate|cbn [length]; lia]]].
    destruct (member_lookup ms m Mo Hin) as (L1 & L2 & L3). destruct (tte_not (m_ty m)) as [Es Ev].
    rewrite gread_fields_S. rewrite (hl _ _ _ _ _ _ _ E1). cbn beta iota zeta. change (-1 <? 0) with true. change (GENERIC =? GENERIC) with true.
    cbn iota. rewrite L1.
    rewrite Arith.wraps_id by (auto; lia). rewrite L2, Es, L3, Ev, andb_false_r.
    erewrite hb.
    2:{ rewrite (hwb _ _ _ _ _ _ _ E2). reflexivity. }
    erewrite hde by reflexivity. rewrite E3. destruct fs'; reflexivity.
  - intros ms attrs id w0 fs0 attrs' Hout H2 IH2 Mo So fs Hw W P. exfalso.
    apply map_inv in Hw. destruct Hw as ([id' w] & fs' & -> & E & ->). cbn [fst snd] in E. injection E as Ei ->.
    destruct P as [(Pm & _) _]. cbn [fst snd] in Pm. destruct (mem_of ms id') as [m|] eqn:Em; [|congruence].
    apply mem_of_some in Em. destruct Em as [Em Ej]. apply (Hout m Em). congruence.
Qed.
End Read.
