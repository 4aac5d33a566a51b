(** C79: generated struct code over TSimpleJSONProtocol. *)
From Coq Require Import ZArith List Bool Lia String Permutation.
From Coq Require Import ZifyBool ZifyNat.
From Verif Require Import Base Arith Errors Transport TransportProofs Proto Values WfDec Access Strconv JsonText JsonTextProofs
  F64 TField GoVal Names Compare TList TSet TMap TFieldProofs Gen GenSpec GenProofs GenRound
  BufIO BufRead BufReadProofs Json JsonSpec JsonWrite JsonRead JsonReadVal JsonForm PropJson PropGen PropJsonGen SimpleGen.
Import ListNotations.
Local Open Scope list_scope.
Local Notation length := List.length.
Open Scope Z_scope.

(** What a struct or other value is written as. *)
Theorem C79_written : forall J x t v w f o, schema_ok t -> wireof x t v w -> (need w <= f)%nat ->
  gwrite (simpleW J) x f t v (simple_w (MkWt o [])) = Ok (None, (MkWt (o ++ stext J t w) [], [TopLevel])).
Proof.
  intros J x t v w f o So W N. exact (proj1 (simple_write_all J x) t v w W So f TopLevel [] N eq_refl o).
Qed.
Print Assumptions C79_written.

(** Every text of the form written ([reads]: the fields in any order, the last of each counts) is read as what it says. *)
Theorem C79_read_partial : forall J x M cf t w v f r rest, wf w -> splain J t w ->
  reads x cf t (canon w) v -> schema_ok t -> (need w <= f)%nat ->
  readable Strict (stext J t w) rest r -> follows w rest ->
  exists b, gread (simpleR J) x M cf f t (simple_r r) = Ok (inl v, (b, [TopLevel])) /\ holds b rest.
Proof.
  intros J x M cf t w v f r rest W P R So N Rd F. apply readable_view in Rd.
  rewrite <- (app_nil_r (stext J t w)) in Rd.
  destruct (proj1 (simple_read_all J x M cf) t _ v R So w eq_refl W P f TopLevel [] (new_breader r) 0 [] rest N eq_refl Rd F)
    as (b & p & D & V).
  exists b. split; [exact D|exact (view_holds _ _ _ _ _ V)].
Qed.
Print Assumptions C79_read_partial.

(** What was written is read back with the same contents.  Missing: what [kept] (C48) and [splain] exclude, NaNs other than Go's,
    documents of more than 4096 bytes, cuts of the text before or after a comma, before a colon, and such. *)
Theorem C79_round_trip_partial : forall J x M cf t v w,
  orders x -> schema_ok t -> kept x t v -> wireof x t v w -> splain J t w -> canon w = w ->
  exists doc n, forall f, (n <= f)%nat ->
    (forall o, gwrite (simpleW J) x f t v (simple_w (MkWt o [])) = Ok (None, (MkWt (o ++ doc) [], [TopLevel]))) /\
    forall r rest, readable Strict doc rest r -> follows w rest ->
    exists v' b, gread (simpleR J) x M cf f t (simple_r r) = Ok (inl v', (b, [TopLevel])) /\ same v v' /\ holds b rest.
Proof.
  intros J x M cf t v w Ho So K W P C. destruct (kept_round x cf Ho t v K So) as (w' & W' & R).
  assert (E : w' = w) by (eapply wireof_fun; eassumption). subst w'.
  exists (stext J t w), (need w). intros f N. split; [intros; now apply C79_written|].
  intros r rest Rd F. destruct (R false) as (v' & R1 & S1). cbn [ue] in R1. rewrite <- C in R1.
  destruct (C79_read_partial J x M cf t w v' f r rest (wireof_wf _ _ _ _ W) P R1 So N Rd F) as (b & G & H).
  exists v', b. auto.
Qed.
Print Assumptions C79_round_trip_partial.

(** ** Names the reader does not know *)
Lemma unknown_id : forall ms n, members_ok ms -> ~ In n (map m_name ms) ->
  FieldIdFromFieldName (fc_of ms) n = -1 /\ f_type (FieldFromFieldId (fc_of ms) (-1)) = STOP.
Proof.
  intros ms n (Ni & Nn & H) Hn. destruct (fields_map ms) as [Ei En].
  destruct (lookups 0 (fields_of ms)) as (_ & L1 & L2 & _); [rewrite Ei; assumption|rewrite En; assumption|].
  split; [apply L2; now rewrite En|].
  destruct (L1 (-1)) as (L & _); [|].
  { rewrite Ei, in_map_iff. intros (m & E & Hm). apply H in Hm. lia. }
  unfold fc_of. now rewrite L.
Qed.
Section Unknown.
Variable J : jenv.
Variable x : ext.
Variable M : Z.
Variable cf : nat.
Lemma unknown_name_fails : forall name ms fs attrs n tail f r rest,
  schema_ok (TyStruct name ms) -> wf (VStruct fs) -> splain J (TyStruct name ms) (VStruct fs) ->
  readsf x cf ms (map (fun m => (m_id m, m_init m)) ms) (map (fun f => (fst f, canon (snd f))) fs) attrs ->
  text_ok J Strict n -> ~ In n (map m_name ms) -> (need (VStruct fs) <= f)%nat ->
  readable Strict ([123] ++ sfields J ms ObjFirst fs ++ match fs with [] => [] | _ => [44] end ++
                   json_quote (j_style J) n ++ 58 :: tail) rest r ->
  exists s, gread (simpleR J) x M cf f (TyStruct name ms) (simple_r r) = Ok (inr (EProtocol INVALID_DATA), s).
Proof.
  intros name ms fs attrs n tail f r rest So W P R Tn Nn N Rd. apply readable_view in Rd.
  inversion So as [| | | | | | | | | | | |? ? Mo Sm]; subst.
  destruct f as [|f]; [cbn in N; lia|]. cbn [need] in N.
  destruct (ObjectStart_view TopLevel Strict (new_breader r) 0 (sfields J ms ObjFirst fs ++ match fs with [] => [] | _ => [44] end ++
                   json_quote (j_style J) n ++ 58 :: tail) rest [] (rdy _ Ks _ _) Rd) as (b1 & E1 & V1).
  set (c2 := match fs with [] => ObjFirst | _ => NextKey end).
  assert (Es : match fs with [] => [] | _ => [44] end = sep c2) by (unfold c2; now destruct fs). rewrite Es in V1.
  assert (G : exists b2 p2 g, gread_fields (simpleR J) x M cf f ms (map (fun m => (m_id m, m_init m)) ms) (b1, [ObjFirst; TopLevel]) =
            gread_fields (simpleR J) x M cf (S g) ms attrs (b2, [c2; TopLevel]) /\
            view Strict b2 p2 (sep c2 ++ json_quote (j_style J) n ++ 58 :: tail) rest /\ (c2 = ObjFirst -> p2 = 123)).
  { destruct fs as [|f0 fs].
    - cbn [map] in R. inversion R; subst. destruct f as [|f]; [cbn in N; lia|]. exists b1, 123, f. split; [reflexivity|]. split; [exact V1|auto].
    - destruct (proj2 (proj2 (proj2 (simple_read_all J x M cf))) ms _ _ attrs R Mo Sm (f0 :: fs) eq_refl W P f ObjFirst [TopLevel]
                  b1 123 (sep c2 ++ json_quote (j_style J) n ++ 58 :: tail) rest) as (b2 & p2 & g & E2 & V2 & _); auto.
      { unfold fneed. lia. }
      { cbn; tauto. }
      exists b2, p2, g. split; [exact E2|]. split; [exact V2|discriminate]. }
  destruct G as (b2 & p2 & g & E2 & V2 & Hp2).
  assert (K2 : is_key c2 = true) by (unfold c2; now destruct fs).
  destruct (sFieldBegin_view J c2 n b2 p2 tail rest [TopLevel] K2 Hp2 Tn V2) as (b3 & E3 & V3).
  destruct (not_null Strict b3 34 (58 :: tail) rest V3) as (b4 & E4 & V4); [reflexivity|cbn; lia|].
  destruct (unknown_id ms n Mo Nn) as [U1 U2].
  exists (b4, [NextValue; TopLevel]).
  transitivity ((_ <-- hwrap (hlift (rStructBegin (simpleR J))) ;;
      attrs <-- gread_fields (simpleR J) x M cf f ms (map (fun m => (m_id m, m_init m)) ms) ;;
      _ <-- hwrap (hdo (rStructEnd (simpleR J))) ;;
      hret (AStruct 0 name (fc_of ms) attrs)) (simple_r r)); [reflexivity|].
  assert (Eb : rStructBegin (simpleR J) (simple_r r) = Ok ([], None, (b1, [ObjFirst; TopLevel]))).
  { change (rStructBegin (simpleR J)) with ReadStructBegin. unfold ReadStructBegin, simple_r. now rewrite E1. }
  rewrite (hl _ _ _ _ _ _ _ Eb).
  assert (Ef : gread_fields (simpleR J) x M cf f ms (map (fun m => (m_id m, m_init m)) ms) (b1, [ObjFirst; TopLevel]) =
               Ok (inl attrs, (b3, [NextValue; TopLevel]))).
  { rewrite E2, gread_fields_S. change sReadFieldBegin with (rFieldBegin (simpleR J)) in E3. rewrite (hl _ _ _ _ _ _ _ E3).
    cbn beta iota zeta. change (-1 <? 0) with true. change (GENERIC =? GENERIC) with true. cbn iota. rewrite U1.
    change (wraps 16 (-1)) with (-1). rewrite U2. reflexivity. }
  rewrite (hb _ _ _ _ _ _ _ Ef). unfold hbind, hwrap, hdo. change (rStructEnd (simpleR J)) with (parse_end is_key 125).
  unfold parse_end. rewrite E4. reflexivity.
Qed.
End Unknown.
(** A document with a name the reader does not know, after members it knows, is always refused: no field is ever passed over. *)
Theorem C79_unknown_name : forall J x M cf name ms fs v n tail f r rest,
  schema_ok (TyStruct name ms) -> wf (VStruct fs) -> splain J (TyStruct name ms) (VStruct fs) ->
  reads x cf (TyStruct name ms) (canon (VStruct fs)) v ->
  text_ok J Strict n -> ~ In n (map m_name ms) -> (need (VStruct fs) <= f)%nat ->
  readable Strict ([123] ++ sfields J ms ObjFirst fs ++ match fs with [] => [] | _ => [44] end ++
                   json_quote (j_style J) n ++ 58 :: tail) rest r ->
  exists s, gread (simpleR J) x M cf f (TyStruct name ms) (simple_r r) = Ok (inr (EProtocol INVALID_DATA), s).
Proof.
  intros J x M cf name ms fs v n tail f r rest So W P R. inversion R; subst. eapply unknown_name_fails; eassumption.
Qed.
Print Assumptions C79_unknown_name.

Lemma sfields_split : forall J ms p c f q, sfields J ms c (p ++ f :: q) =
  sfields J ms c p ++ (match p with [] => sep c | _ => [44] end) ++ sfield J ms f ++ sfields J ms NextKey q.
Proof.
  induction p as [|g p IH]; intros c f q; cbn [app]; [now rewrite sfields_cons|].
  rewrite !sfields_cons, IH, <- !app_assoc. destruct p; reflexivity.
Qed.
Lemma readsf_prefix : forall x cf ms p q a a', readsf x cf ms a (p ++ q) a' -> exists a1, readsf x cf ms a p a1.
Proof.
  induction p as [|f p IH]; intros q a a' R; cbn [app] in R; [eexists; constructor|].
  inversion R; subst.
  - match goal with H : readsf _ _ _ _ (p ++ q) _ |- _ => destruct (IH _ _ _ H) as [a1 R1] end.
    exists a1. eapply ref_known; eauto.
  - match goal with H : readsf _ _ _ _ (p ++ q) _ |- _ => destruct (IH _ _ _ H) as [a1 R1] end.
    exists a1. eapply ref_unknown; eauto.
Qed.
Lemma first_unknown : forall ms (fs : list (Z * tval)), (exists f, In f fs /\ mem_of ms (fst f) = None) ->
  exists p f q, fs = p ++ f :: q /\ mem_of ms (fst f) = None /\ forall g, In g p -> mem_of ms (fst g) <> None.
Proof.
  induction fs as [|f fs IH]; intros (g & Hg & E); [destruct Hg|].
  destruct (mem_of ms (fst f)) as [m|] eqn:Em.
  - destruct IH as (p & f1 & q & -> & E1 & H1).
    { destruct Hg as [->|Hg]; [congruence|eauto]. }
    exists (f :: p), f1, q. split; [reflexivity|]. split; [assumption|]. intros h [<-|Hh]; [congruence|auto].
  - exists [], f, fs. split; [reflexivity|]. split; [assumption|]. intros h [].
Qed.
Lemma mem_of_incl : forall ms1 ms2 id m, NoDup (map m_id ms2) -> incl ms1 ms2 -> mem_of ms1 id = Some m -> mem_of ms2 id = Some m.
Proof. intros ms1 ms2 id m Nd Hi H. apply mem_of_some in H. destruct H as [Hm <-]. apply mem_of_in; auto. Qed.
Lemma all_prefix : forall A (P : A -> Prop) p q, all P (p ++ q) -> all P p.
Proof. induction p as [|a p IH]; intros q H; [exact I|]. destruct H as [H1 H2]. split; [assumption|eauto]. Qed.
Lemma all_ext : forall A (P Q : A -> Prop) l, (forall a, In a l -> P a -> Q a) -> all P l -> all Q l.
Proof. induction l as [|a l IH]; intros H X; [exact I|]. destruct X. split; [apply H; [now left|assumption]|apply IH; [intros; apply H; [now right|assumption]|assumption]]. Qed.
Lemma sfields_same : forall J ms1 ms2 fs c, (forall f, In f fs -> mem_of ms1 (fst f) = mem_of ms2 (fst f)) ->
  sfields J ms2 c fs = sfields J ms1 c fs.
Proof.
  induction fs as [|f fs IH]; intros c H; [reflexivity|]. rewrite !sfields_cons. unfold sfield, mem_name, mem_ty.
  rewrite (H f (or_introl eq_refl)), IH; [reflexivity|]. intros; apply H; now right.
Qed.

Lemma fneed_app : forall p q, (fneed p <= fneed (p ++ q))%nat.
Proof.
  intros p q. induction p as [|h p IH]; [destruct q; cbn; lia|]. cbn [app fneed fold_right]. fold (fneed p). fold (fneed (p ++ q)). lia.
Qed.
(** So a reader of an older schema reads nothing a writer of a newer one wrote, once a new member is set. *)
Theorem C79_newer_writer : forall J x M cf name2 ms2 name1 ms1 a fc attrs fs,
  orders x -> schema_ok (TyStruct name2 ms2) -> schema_ok (TyStruct name1 ms1) -> incl ms1 ms2 ->
  kept x (TyStruct name2 ms2) (AStruct a name2 fc attrs) ->
  wireof x (TyStruct name2 ms2) (AStruct a name2 fc attrs) (VStruct fs) ->
  splain J (TyStruct name2 ms2) (VStruct fs) -> canon (VStruct fs) = VStruct fs ->
  (exists f, In f fs /\ forall m, In m ms1 -> m_id m <> fst f) ->
  exists doc n, forall f, (n <= f)%nat ->
    (forall o, gwrite (simpleW J) x f (TyStruct name2 ms2) (AStruct a name2 fc attrs) (simple_w (MkWt o [])) =
       Ok (None, (MkWt (o ++ doc) [], [TopLevel]))) /\
    forall r rest, readable Strict doc rest r ->
    exists s, gread (simpleR J) x M cf f (TyStruct name1 ms1) (simple_r r) = Ok (inr (EProtocol INVALID_DATA), s).
Proof.
  intros J x M cf name2 ms2 name1 ms1 a fc attrs fs Ho So2 So1 Hi K W P C (f0 & Hf0 & Hu).
  destruct (subset_round x cf Ho name2 name1 ms2 ms1 a fc attrs K So2 Hi) as (w' & W' & R).
  assert (E : w' = VStruct fs) by (eapply wireof_fun; eassumption). subst w'.
  exists (stext J (TyStruct name2 ms2) (VStruct fs)), (need (VStruct fs)). intros f N. split; [intros; now apply C79_written|].
  intros r rest Rd. destruct (R false) as (attrs' & R1 & _). cbn [ue] in R1. rewrite <- C in R1. cbn [canon] in R1.
  inversion R1 as [| | | | | | | | | | | |? ? ? ? R2]; subst.
  inversion So1 as [| | | | | | | | | | | |? ? Mo1 Sm1]; inversion So2 as [| | | | | | | | | | | |? ? Mo2 Sm2]; subst.
  destruct (first_unknown ms1 fs) as (p & g & q & -> & Eg & Hp).
  { exists f0. split; [exact Hf0|]. destruct (mem_of ms1 (fst f0)) as [m|] eqn:Em; [|reflexivity].
    apply mem_of_some in Em. destruct Em as [Em Ei]. destruct (Hu m Em Ei). }
  assert (Hs : forall h, In h p -> mem_of ms1 (fst h) = mem_of ms2 (fst h)).
  { intros h Hh. specialize (Hp h Hh). destruct (mem_of ms1 (fst h)) as [m|] eqn:Em; [|congruence].
    symmetry. eapply mem_of_incl; [apply Mo2|exact Hi|exact Em]. }
  rewrite map_app in R2. apply readsf_prefix in R2. destruct R2 as [a1 R2].
  pose proof (wireof_wf _ _ _ _ W) as Ww. cbn [wf splain] in Ww, P.
  pose proof (all_each _ _ _ P g ltac:(apply in_or_app; right; now left)) as (Pg1 & Pg2 & Pg3).
  destruct (mem_of ms2 (fst g)) as [mg|] eqn:Emg; [|congruence].
  apply (unknown_name_fails J x M cf name1 ms1 p a1 (mem_name ms2 (fst g))
           (stext J (mem_ty ms2 (fst g)) (snd g) ++ sfields J ms2 NextKey q ++ [125]) f r rest); auto.
  - exact (all_prefix _ _ _ _ Ww).
  - apply all_prefix in P. cbn [splain]. revert P. apply all_ext. intros h Hh. unfold mem_name, mem_ty. now rewrite (Hs h Hh).
  - unfold mem_name. rewrite Emg. intros X. apply in_map_iff in X. destruct X as (m & En & Hm).
    apply mem_of_some in Emg. destruct Emg as [Hmg Ei].
    assert (m = mg).
    { destruct Mo2 as (_ & Nn & _). apply Hi in Hm. clear - Nn Hm Hmg En. induction ms2 as [|k ms IH]; [destruct Hm|].
      cbn [map] in Nn. inversion Nn as [|? ? X1 X2]; subst. destruct Hm as [->|Hm], Hmg as [->|Hmg]; auto.
      - destruct X1. rewrite En. now apply in_map.
      - destruct X1. rewrite <- En. now apply in_map. }
    subst m. pose proof (mem_of_in ms1 mg (proj1 Mo1) Hm) as Y. congruence.
  - clear -N. cbn [need] in *. fold (fneed p). fold (fneed (p ++ g :: q)) in N. pose proof (fneed_app p (g :: q)). lia.
  - rewrite stext_struct, sfields_split in Rd. rewrite (sfields_same J ms1 ms2 p ObjFirst Hs) in Rd. unfold sfield in Rd.
    cbn [sep] in Rd. clear -Rd. repeat (rewrite <- !app_assoc in Rd; cbn [app] in Rd).
    repeat (rewrite <- !app_assoc; cbn [app]). exact Rd.
Qed.
Print Assumptions C79_newer_writer.

(** In one piece of at most 4096 bytes. *)
Theorem C79_one_chunk_partial : forall J x M cf name ms v w,
  orders x -> schema_ok (TyStruct name ms) -> kept x (TyStruct name ms) v ->
  wireof x (TyStruct name ms) v w -> splain J (TyStruct name ms) w -> canon w = w ->
  exists doc n, forall f, (n <= f)%nat ->
    gwrite (simpleW J) x f (TyStruct name ms) v (simple_w (MkWt [] [])) = Ok (None, (MkWt doc [], [TopLevel])) /\
    ((length doc <= 4096)%nat ->
     exists v' s, gread (simpleR J) x M cf f (TyStruct name ms) (simple_r [(doc, None)]) = Ok (inl v', s) /\ same v v').
Proof.
  intros J x M cf name ms v w Ho So K W P C. destruct (kept_round x cf Ho _ v K So) as (w' & W' & R).
  assert (E : w' = w) by (eapply wireof_fun; eassumption). subst w'.
  exists (stext J (TyStruct name ms) w), (need w). intros f N. split; [now apply (C79_written J x _ v w f [])|].
  intros L. destruct (R false) as (v' & R1 & S1). cbn [ue] in R1. rewrite <- C in R1.
  destruct (C79_read_partial J x M cf _ w v' f [(stext J (TyStruct name ms) w, None)] [] (wireof_wf _ _ _ _ W) P R1 So N) as (b & G & H).
  - inversion W; subst. rewrite stext_struct in *. cbn [app] in *. split; [constructor; [split; [discriminate|reflexivity]|constructor]|].
    split; [reflexivity|]. split; [exact L|]. cbn [ends]. repeat constructor. apply tpos_ge. cbn. lia.
  - apply follows_delim. exact I.
  - eauto.
Qed.
Print Assumptions C79_one_chunk_partial.

(** ** The text is JSON *)
(** Strings and names of members are UTF-8, or Go's encoding/json replaces what is not; FormatFloat gives JSON numbers. *)
Fixpoint jsonable (J : jenv) (t : ty) (w : tval) : Prop :=
  match w, t with
  | VDouble d, _ => finite d -> number (x_fmt64 (j_ext J) d)
  | VStr s, TyBinary => True
  | VStr s, _ => textual (j_style J) s
  | VList _ l, TyList e | VSet _ l, TySet e => all (jsonable J e) l
  | VMap _ _ l, TyMap a e => all (fun kv => jsonable J a (fst kv) /\ jsonable J e (snd kv)) l
  | VStruct fs, TyStruct _ ms =>
    all (fun f => textual (j_style J) (mem_name ms (fst f)) /\ jsonable J (mem_ty ms (fst f)) (snd f)) fs
  | _, _ => True
  end.
Lemma type_number : forall t, json (FormatInt (type_to_enum t)).
Proof. intros t. apply json_number, number_format. pose proof (tte_in8 t). unfold in_u, in_s in *. lia. Qed.
Lemma len_number : forall A (l : list A), Z.of_nat (length l) < 2 ^ 31 -> json (FormatInt (Z.of_nat (length l))).
Proof. intros A l H. apply json_number, number_format. unfold in_s. lia. Qed.
Lemma stext_json_all : forall J x,
  (forall t v w, wireof x t v w -> schema_ok t -> jsonable J t w -> json (stext J t w)) /\
  (forall t vs ws, wireofs x t vs ws -> schema_ok t -> all (jsonable J t) ws ->
     Forall json (map (stext J t) ws) /\ length ws = length vs) /\
  (forall k v es ws, wireofm x k v es ws -> schema_ok k -> schema_ok v ->
     all (fun kv => jsonable J k (fst kv) /\ jsonable J v (snd kv)) ws ->
     Forall json (flat_map (fun kv => [stext J k (fst kv); stext J v (snd kv)]) ws) /\ length ws = length es) /\
  (forall attrs sms fs, wireoff x attrs sms fs -> forall ms, (forall m, In m sms -> mem_of ms (m_id m) = Some m) ->
     (forall m, In m sms -> schema_ok (m_ty m)) ->
     all (fun f => textual (j_style J) (mem_name ms (fst f)) /\ jsonable J (mem_ty ms (fst f)) (snd f)) fs ->
     Forall JsonForm.member (map (sfield J ms) fs)).
Proof.
  intros J x.
  assert (N64 : forall n z, 0 < n <= 64 -> in_s n z -> json (FormatInt z)).
  { intros n z Hn Hz. apply json_number, number_format. apply (in_s_64 n); [lia|assumption]. }
  apply wireof_mut.
  - intros [] _ _; constructor.
  - intros z Hz _ _. cbn [stext]. apply json_number, number_format. unfold in_u, in_s in *. lia.
  - intros z Hz _ _. cbn [stext]. apply (N64 16); [lia|assumption].
  - intros z Hz _ _. cbn [stext]. apply (N64 32); [lia|assumption].
  - intros z Hz _ _. cbn [stext]. apply (N64 64); [lia|assumption].
  - intros z Hz _ P. cbn [stext jsonable] in *. unfold double_text.
    assert (Q : forall s, Forall plain s -> json (quoted s)) by (intros s F; apply json_string, quoted_jstring, F).
    destruct (f64_is_nan z) eqn:E1; [apply Q; cbn; repeat (apply Forall_cons; [unfold plain; lia|]); apply Forall_nil|].
    destruct (Z.eqb_spec z INF); [apply Q; cbn; repeat (apply Forall_cons; [unfold plain; lia|]); apply Forall_nil|].
    destruct (Z.eqb_spec z NEG_INF); [apply Q; cbn; repeat (apply Forall_cons; [unfold plain; lia|]); apply Forall_nil|].
    apply json_number, P. repeat split; assumption.
  - intros s _ _ _ P. cbn [stext jsonable] in *. apply json_string. now apply quote_jstring.
  - intros s B _ _ _. cbn [stext]. apply json_string, quoted_jstring. now apply b64_plain.
  - intros tag n cs z Hz _ _. cbn [stext]. apply (N64 32); [lia|assumption].
  - intros t a et l ws Hl _ IH So P. inversion So; subst. cbn [stext jsonable] in *. destruct (IH ltac:(assumption) P) as [F L].
    pose proof (json_list _ (elements_commas (FormatInt (Z.of_nat (length ws)) :: map (stext J t) ws) _ (type_number t)
      ltac:(constructor; [apply len_number; rewrite L; exact Hl|exact F]))) as X.
    unfold commas in X. cbn [flat_map app] in X. fold (commas (map (stext J t) ws)) in X.
    repeat (rewrite <- ?app_assoc in X; cbn [app] in X). exact X.
  - intros t a et size l ws Hs Hl _ IH So P. inversion So; subst. cbn [stext jsonable] in *. destruct (IH ltac:(assumption) P) as [F L].
    pose proof (json_list _ (elements_commas (FormatInt (Z.of_nat (length ws)) :: map (stext J t) ws) _ (type_number t)
      ltac:(constructor; [apply len_number; rewrite L; exact Hl|exact F]))) as X.
    unfold commas in X. cbn [flat_map app] in X. fold (commas (map (stext J t) ws)) in X.
    repeat (rewrite <- ?app_assoc in X; cbn [app] in X). exact X.
  - intros k v a kt vt size l b es ws He Hm Hl _ IH So P. inversion So; subst. cbn [stext jsonable] in *.
    destruct (IH ltac:(assumption) ltac:(assumption) P) as [F L].
    pose proof (json_list _ (elements_commas (FormatInt (type_to_enum v) :: FormatInt (Z.of_nat (length ws)) ::
        flat_map (fun kv => [stext J k (fst kv); stext J v (snd kv)]) ws) _ (type_number k)
      ltac:(constructor; [apply type_number|]; constructor; [apply len_number; rewrite L; exact Hl|exact F]))) as X.
    assert (E : commas (flat_map (fun kv => [stext J k (fst kv); stext J v (snd kv)]) ws) =
                flat_map (fun kv => 44 :: stext J k (fst kv) ++ 44 :: stext J v (snd kv)) ws).
    { clear. induction ws as [|kv ws IH]; [reflexivity|]. unfold commas in *. cbn [flat_map app]. rewrite IH.
      now rewrite <- !app_assoc. }
    unfold commas in X at 1. cbn [flat_map app] in X. fold (commas (flat_map (fun kv => [stext J k (fst kv); stext J v (snd kv)]) ws)) in X.
    rewrite E in X. repeat (rewrite <- ?app_assoc in X; cbn [app] in X). exact X.
  - intros name ms a fc attrs fs _ IH So P. inversion So as [| | | | | | | | | | | |? ? Mo Sm]; subst. rewrite stext_struct.
    pose proof (json_object_of (map (sfield J ms) fs)) as X.
    replace (sfields J ms ObjFirst fs) with (match map (sfield J ms) fs with [] => [] | m :: r => m ++ commas r end).
    + apply X. apply (IH ms); [|intros m Hm; apply Sm; now apply in_sorted|exact P].
      intros m Hm. apply mem_of_in; [apply Mo|]. now apply in_sorted.
    + destruct fs as [|f fs]; [reflexivity|]. rewrite sfields_cons. cbn [map sep app]. f_equal. clear.
      destruct fs as [|g fs]; [reflexivity|]. unfold sfields, commas. cbn [map flat_map sep tl app]. do 2 f_equal.
      induction fs as [|h fs IH]; [reflexivity|]. cbn [map flat_map]. now rewrite IH.
  - intros t _ _. split; [constructor|reflexivity].
  - intros t v w vs ws _ IH1 _ IH2 So [P1 P2]. destruct (IH2 So P2) as [F L]. split; [|cbn; congruence]. constructor; auto.
  - intros k v _ _ _. split; [constructor|reflexivity].
  - intros k v a b wa wb es ws _ IH1 _ IH2 _ IH3 So1 So2 [[P1 P1'] P2]. destruct (IH3 So1 So2 P2) as [F L].
    split; [|cbn; congruence]. cbn [flat_map app fst snd]. constructor; [|constructor]; auto.
  - intros attrs ms _ _ _. constructor.
  - intros attrs m sms fs Ng _ IH ms Hm So P. apply IH; auto; intros; [apply Hm|apply So]; now right.
  - intros attrs m sms w fs Ng Hid _ IH1 _ IH2 ms Hm So [[P1 P1'] P2]. cbn [fst snd] in *. constructor.
    + exists (json_quote (j_style J) (mem_name ms (m_id m))), (stext J (mem_ty ms (m_id m)) w). split; [now apply quote_jstring|]. split; [|reflexivity].
      unfold mem_ty in *. cbn [fst snd] in *. rewrite (Hm m (or_introl eq_refl)) in *. apply IH1; [apply So; now left|exact P1'].
    + apply IH2; auto; intros; [apply Hm|apply So]; now right.
Qed.
(** What is written is JSON. *)
Theorem C79_json : forall J x t v w f, schema_ok t -> wireof x t v w -> jsonable J t w -> (need w <= f)%nat ->
  exists doc, json doc /\
    forall o, gwrite (simpleW J) x f t v (simple_w (MkWt o [])) = Ok (None, (MkWt (o ++ doc) [], [TopLevel])).
Proof.
  intros J x t v w f So W P N. exists (stext J t w). split; [now apply (proj1 (stext_json_all J x) t v w)|].
  intros o. now apply C79_written.
Qed.
Print Assumptions C79_json.

Definition doc79 : bytes :=
  lit "{""a"":true,""b"":""a\""b"",""c"":[12,2,{""a"":-5},{""a"":6}],""g"":2,""e"":[10,1,-9223372036854775808],""f"":[11,15,2,""x"",[4,1,4611686018427387904],""y"",[4,0]]}".
Definition cut79 : rt := [(firstn 2 doc79, None); (firstn 14 (skipn 2 doc79), None); (skipn 16 doc79, None)].
Lemma wire71 : wireof extj ty_outer v71 w71.
Proof.
  constructor. cbn [ms_outer sorted_members insert_m m_id Z.ltb].
  repeat first [ apply wof_nil | apply wof_take; [reflexivity|concrete| |] | apply wof_skip; [reflexivity|]
               | apply wo_bool | apply wo_enum; concrete
               | apply (wo_list _ TyI32); [cbn; lia|] | apply (wo_list _ ty_inner); [cbn; lia|] | apply (wo_list _ TyDouble); [cbn; lia|]
               | apply (wo_set _ TyI64); [left; discriminate|cbn; lia|]
               | eapply (wo_map _ TyString (TyList TyDouble)); [reflexivity|reflexivity|cbn; lia|]
               | apply wo_struct; cbn [sorted_members insert_m m_id Z.ltb]
               | apply wos_nil | apply wos_cons | apply wom_nil | apply wom_cons
               | apply wo_i32; concrete | apply wo_i16; concrete | apply wo_i64; concrete
               | apply wo_double; concrete | apply wo_string; [concrete|vm_compute; reflexivity] ].
Qed.
Lemma splain71 : splain J0 ty_outer w71.
Proof.
  pose proof ascii_utf8 as T.
  cbn -[lit Z.pow]. repeat split; try discriminate; try (apply T; reflexivity).
  right; right; right. split; [apply number_format; concrete|vm_compute; reflexivity].
Qed.
(** All hypotheses of the round trip, for the value of C71 in three pieces. *)
Example C79_ex : orders extj /\ schema_ok ty_outer /\ kept extj ty_outer v71 /\ wireof extj ty_outer v71 w71 /\
  splain J0 ty_outer w71 /\ canon w71 = w71 /\ stext J0 ty_outer w71 = doc79 /\
  readable Strict doc79 [] cut79 /\
  match gread (simpleR J0) extj 64 5 30 ty_outer (simple_r cut79) with
  | Ok (inl (AStruct _ _ _ attrs), _) => attribute attrs 2 = AStr (lit "a""b") /\ attribute attrs 9 = ANil
  | _ => False
  end.
Proof.
  split; [exact extj_orders|]. split; [exact outer_ok|]. split; [exact kept71|]. split; [exact wire71|].
  split; [exact splain71|]. split; [concrete|]. split; [vm_compute; reflexivity|]. split.
  { split; [concrete|]. split; [reflexivity|]. split; [vm_compute; lia|]. repeat (constructor; [vm_compute; reflexivity|]). constructor. }
  vm_compute. split; reflexivity.
Qed.
Example C79_json_ex : jsonable J0 ty_outer w71.
Proof.
  assert (T : forall s, forallb (fun c => (0 <=? c) && (c <? 128)) s = true -> textual (j_style J0) s).
  { intros s H. split; [|right; now apply ascii_utf8].
    apply Forall_forall. intros c Hc. rewrite forallb_forall in H. specialize (H c Hc). unfold is_byte. lia. }
  cbn -[lit Z.pow textual finite]. repeat split; try (apply T; reflexivity).
  intros _. apply number_format. concrete.
Qed.

(** An i16 and a binary are read back, unlike over TJSONProtocol (C71). *)
Definition ty79 : ty := TyStruct [83] [Mem 1 (lit "id") false None TyI16; Mem 2 (lit "raw") false None TyBinary].
Definition v79 : any := AStruct 0 [83] (fc_of []) [(1, AInt16 (-300)); (2, ABytes [0; 255])].
Example C79_small_ex :
  schema_ok ty79 /\ kept extj ty79 v79 /\ wireof extj ty79 v79 (VStruct [(1, VI16 (-300)); (2, VStr [0; 255])]) /\
  splain J0 ty79 (VStruct [(1, VI16 (-300)); (2, VStr [0; 255])]) /\
  stext J0 ty79 (VStruct [(1, VI16 (-300)); (2, VStr [0; 255])]) = lit "{""id"":-300,""raw"":""AP8=""}".
Proof.
  split.
  { constructor; [members|]. intros m [<-|[<-|[]]]; constructor. }
  split.
  { constructor; [reflexivity| |]; intros m [<-|[<-|[]]] G; try discriminate G; constructor; try concrete; try (cbn; lia). }
  split.
  { constructor. cbn [sorted_members insert_m m_id Z.ltb].
    apply wof_take; [reflexivity|concrete|constructor; concrete|]. apply wof_take; [reflexivity|concrete| |constructor].
    constructor; [concrete|cbn; lia]. }
  split.
  { cbn -[lit]. repeat split; try discriminate; try (apply ascii_utf8; reflexivity). concrete. }
  vm_compute. reflexivity.
Qed.

(** The hypotheses of the two theorems on names not known: [ty79] written, the reader knows "id" only. *)
Definition ms_old : list Gen.member := [Mem 1 (lit "id") false None TyI16].
Example C79_unknown_ex :
  let fs := [(1, VI16 7)] in
  schema_ok (TyStruct [83] ms_old) /\ wf (VStruct fs) /\ splain J0 (TyStruct [83] ms_old) (VStruct fs) /\
  reads extj 5 (TyStruct [83] ms_old) (canon (VStruct fs)) (AStruct 0 [83] (fc_of ms_old) [(1, AInt16 7)]) /\
  text_ok J0 Strict (lit "x") /\ ~ In (lit "x") (map m_name ms_old) /\
  readable Strict ([123] ++ sfields J0 ms_old ObjFirst fs ++ [44] ++ json_quote (j_style J0) (lit "x") ++ 58 :: lit "{}}") []
    [(lit "{""id"":7,""x"":{}}", None)].
Proof.
  cbv zeta. split.
  { constructor; [members|]. intros m [<-|[]]. constructor. }
  split; [concrete|]. split.
  { cbn -[lit]. repeat split; try discriminate. now apply ascii_utf8. }
  split.
  { constructor. eapply ref_known; [left; reflexivity|reflexivity|constructor|constructor]. }
  split; [split; [now apply ascii_utf8|exact I]|]. split; [intros [H|[]]; discriminate H|].
  split; [concrete|]. split; [reflexivity|]. split; [vm_compute; lia|]. repeat (constructor; [vm_compute; reflexivity|]). constructor.
Qed.
Example C79_newer_ex :
  incl ms_old [Mem 1 (lit "id") false None TyI16; Mem 2 (lit "raw") false None TyBinary] /\
  (exists f, In f [(1, VI16 (-300)); (2, VStr [0; 255])] /\ forall m, In m ms_old -> m_id m <> fst f) /\
  readable Strict (lit "{""id"":-300,""raw"":""AP8=""}") [] [(lit "{""id"":-300,""raw"":""AP8=""}", None)].
Proof.
  split; [intros m [<-|[]]; now left|]. split.
  { exists (2, VStr [0; 255]). split; [right; now left|]. intros m [<-|[]]. discriminate. }
  split; [concrete|]. split; [reflexivity|]. split; [vm_compute; lia|]. repeat (constructor; [vm_compute; reflexivity|]). constructor.
Qed.

(** Over TBinaryProtocol a reader passes over members it does not know (C49); over TSimpleJSONProtocol it does not. *)
Theorem C79_skipping_refuted : exists f doc s,
  gwrite (simpleW J0) extj f ty79 v79 (simple_w (MkWt [] [])) = Ok (None, (MkWt doc [], [TopLevel])) /\
  gread (simpleR J0) extj 64 5 f (TyStruct [83] ms_old) (simple_r [(doc, None)]) = Ok (inr (EProtocol INVALID_DATA), s).
Proof.
  exists 30%nat, (lit "{""id"":-300,""raw"":""AP8=""}"). eexists. split; [vm_compute; reflexivity|]. vm_compute. reflexivity.
Qed.
Print Assumptions C79_skipping_refuted.
(** A document that arrives in two pieces, the first of which ends behind a comma, is refused. *)
Theorem C79_cut_refuted : exists f doc n s,
  gwrite (simpleW J0) extj f ty79 v79 (simple_w (MkWt [] [])) = Ok (None, (MkWt doc [], [TopLevel])) /\
  gread (simpleR J0) extj 64 5 f ty79 (simple_r [(firstn n doc, None); (skipn n doc, None)]) = Ok (inr (EProtocol INVALID_DATA), s).
Proof.
  exists 30%nat, (lit "{""id"":-300,""raw"":""AP8=""}"), 11%nat. eexists. split; [vm_compute; reflexivity|]. vm_compute. reflexivity.
Qed.
Print Assumptions C79_cut_refuted.
