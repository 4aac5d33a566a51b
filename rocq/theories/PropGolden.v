(** C114 for the golden service, tests/generation/golden/gen-go/simple. *)
From Coq Require Import ZArith List Bool Lia Permutation String.
From Coq Require Import ZifyBool ZifyNat.
From Verif Require Import Base Errors Transport Proto Arith TransportProofs Binary Compact Buffer BufIO
  Framed FramedProofs MemBuffer IOStream Http Socket ReadProg WriteErr Over Het OverSim OverInst OverRpc.
From Verif Require Import TField GoVal Compare TMap Values Gen GenSpec AppExc AppExcProofs Rpc RpcProofs RpcFits Names.
From Verif Require Import Codec BinarySpec CompactSpec CompactStruct CompactExact PropFramed PropGen PropRpc PropService PropOver PropOverRpc WfDec Sizes PropFramedCalls.
From Verif Require Import Access Strconv JsonText JsonTextProofs BufRead BufReadProofs Json JsonSpec JsonRead JsonReadVal JsonWrite JsonForm
  PropJson SimpleGen PropSimpleGen PropJsonRpc PropSimpleRpc PropJsonTutorial PropSimpleTutorial PropConst GenProofs GenInst GenRound Golden PropEcho.
Import ListNotations.
Open Scope list_scope.
Open Scope Z_scope.
Local Notation length := List.length.

(** Nine numbers: int32s, or the unset value where the constructor puts it. *)
Definition settable (zs : list Z) : Prop :=
  length zs = 9%nat /\ Forall (fun z => in_s 32 z \/ z = enum_unset) zs /\
  forall i, (6 <= i < 9)%nat -> nth i zs 0 <> enum_unset.
(** What is sent: nil, or an object. *)
Definition message (o : option (list Z)) : any := match o with None => ANil | Some zs => container zs end.
Definition sent_ok (o : option (list Z)) : Prop := match o with None => True | Some zs => settable zs end.
(** What is returned: nil, or an object that holds these numbers. *)
Definition holds_numbers (o : option (list Z)) (v : any) : Prop :=
  match o with
  | None => v = ANil
  | Some zs => exists a fc, v = AStruct a (lit "ContainerOfEnums") fc
      (combine [1; 2; 3; 4; 5; 6; 7; 8; 9] (map (fun tz => enum_of (fst tz) (snd tz))
        (combine [undefined_ty; defined_ty; heterogeneous_ty; undefined_ty; defined_ty; heterogeneous_ty;
                  undefined_ty; defined_ty; heterogeneous_ty] zs)))
  end.
Definition echoed (os : list (option (list Z))) (rs : list cres) : Prop :=
  Forall2 (fun o r => exists attrs, r = (attrs, None) /\ holds_numbers o (attribute attrs 0)) os rs.
Definition asked_for (os : list (option (list Z))) : list (func * list any) := map (fun o => (f_echo, [message o])) os.

(** ** Proofs *)
Lemma golden_schema : schema_ok container_ty.
Proof.
  constructor.
  - split; [nodup|]. split; [nodup|]. intros m Hm. repeat (destruct Hm as [<-|Hm]; [split; [discriminate|cbn; lia]|]). destruct Hm.
  - intros m Hm. repeat (destruct Hm as [<-|Hm]; [constructor|]). destruct Hm.
Qed.
Lemma golden_func : forall f, In f echo_service -> func_ok f.
Proof.
  intros f [<-|[]]. split; [|split; [|split; [|split; [|split]]]].
  - constructor; [split; [nodup|split; [nodup|]]|]; intros m Hm; (destruct Hm as [<-|[]]); [split; [discriminate|cbn; lia]|exact golden_schema].
  - constructor; [split; [nodup|split; [nodup|]]|]; intros m Hm; (destruct Hm as [<-|[]]); [split; [discriminate|cbn; lia]|exact golden_schema].
  - intros m [].
  - discriminate.
  - concrete.
  - vm_compute. reflexivity.
Qed.
Lemma golden_names : NoDup (map fn_name echo_service).
Proof. nodup. Qed.
Lemma golden_ordered : ordered container_ty.
Proof. constructor. intros m Hm. repeat (destruct Hm as [<-|Hm]; [split; [constructor|reflexivity]|]). destruct Hm. Qed.

Lemma golden_plain : forall f m, In f echo_service -> In m (fn_args f ++ result_members f) -> no_binary (m_ty m).
Proof.
  intros f m [<-|[]] Hm. repeat (destruct Hm as [<-|Hm]; [constructor; intros n Hn; repeat (destruct Hn as [<-|Hn]; [constructor|]); destruct Hn|]).
  destruct Hm.
Qed.
Lemma nine : forall zs : list Z, length zs = 9%nat -> exists a b c d e f g h i, zs = [a; b; c; d; e; f; g; h; i].
Proof.
  intros zs L. do 9 (destruct zs as [|? zs]; [discriminate|]). destruct zs; [|discriminate]. repeat eexists.
Qed.
Lemma golden_kept : forall x zs, settable zs -> kept x container_ty (container zs).
Proof.
  intros x zs (L & F & D). destruct (nine zs L) as (z1 & z2 & z3 & z4 & z5 & z6 & z7 & z8 & z9 & ->).
  pose proof (D 6%nat ltac:(lia)) as D7. pose proof (D 7%nat ltac:(lia)) as D8. pose proof (D 8%nat ltac:(lia)) as D9.
  cbn [nth] in D7, D8, D9. clear L D.
  assert (E : forall n z, nth_error [z1; z2; z3; z4; z5; z6; z7; z8; z9] n = Some z -> in_s 32 z \/ z = enum_unset).
  { intros n z Hn. rewrite Forall_forall in F. apply F. eapply nth_error_In, Hn. }
  clear F. constructor; [reflexivity|..]; intros m Hm G.
  - assert (K : exists tag n cs z, m_ty m = TyEnum tag n cs /\
      attribute (map (fun mz => (m_id (fst mz), enum_of (m_ty (fst mz)) (snd mz)))
         (combine container_ms [z1; z2; z3; z4; z5; z6; z7; z8; z9])) (m_id m) = mk_enum tag n cs z /\
      exists k, nth_error [z1; z2; z3; z4; z5; z6; z7; z8; z9] k = Some z).
    { destruct Hm as [<-|[<-|[<-|[<-|[<-|[<-|[<-|[<-|[<-|[]]]]]]]]]]; do 4 eexists; (split; [reflexivity|split; [reflexivity|]]);
        [exists 0%nat|exists 1%nat|exists 2%nat|exists 3%nat|exists 4%nat|exists 5%nat|exists 6%nat|exists 7%nat|exists 8%nat]; reflexivity. }
    destruct K as (tag & n & cs & z & T & A & k & Hk). rewrite A in G |- *. rewrite T. destruct (E k z Hk) as [R| ->].
    + constructor. exact R.
    + unfold gemits, gisset in G. rewrite T in G. cbn in G. rewrite orb_true_r in G. discriminate.
  - assert (K : exists tag n cs z, m_ty m = TyEnum tag n cs /\
      attribute (map (fun mz => (m_id (fst mz), enum_of (m_ty (fst mz)) (snd mz)))
         (combine container_ms [z1; z2; z3; z4; z5; z6; z7; z8; z9])) (m_id m) = mk_enum tag n cs z /\
      (z = enum_unset -> m_init m = mk_enum tag n cs z)).
    { destruct Hm as [<-|[<-|[<-|[<-|[<-|[<-|[<-|[<-|[<-|[]]]]]]]]]]; do 4 eexists; (split; [reflexivity|split; [reflexivity|]]);
        intros Ez; first [rewrite Ez; reflexivity|contradiction]. }
    destruct K as (tag & n & cs & z & T & A & U). rewrite A in G |- *.
    unfold gemits, gisset in G. rewrite T in G. unfold mk_enum in G at 1. cbn [can_be_nil is_nil andb orb negb] in G.
    unfold mk_enum in G. destruct (Z.eqb_spec z enum_unset) as [Ez|]; [|cbn in G; rewrite orb_true_r in G; discriminate].
    rewrite (U Ez). constructor. reflexivity.
Qed.

(** On the wire: at most nine fields, each an i32. *)
Definition i32_field (ids : list Z) (f : Z * tval) : Prop := In (fst f) ids /\ exists z, snd f = VI32 z.
Lemma enum_wires : forall x attrs ms fs, wireoff x attrs ms fs ->
  (forall m, In m ms -> exists tag n cs, m_ty m = TyEnum tag n cs) ->
  (length fs <= length ms)%nat /\ Forall (i32_field (map m_id ms)) fs.
Proof.
  intros x attrs ms. induction ms as [|m ms IH]; intros fs W T; inversion W as [|? ? ? ? G R|? ? ? w ? G Im Ww R]; subst.
  - split; [cbn; lia|constructor].
  - destruct (IH fs R (fun n Hn => T n (or_intror Hn))) as [L F]. split; [cbn; lia|].
    eapply Forall_impl; [|exact F]. intros f [A B]. split; [right; exact A|exact B].
  - match goal with R : wireoff _ _ ms ?l |- _ => destruct (IH l R (fun n Hn => T n (or_intror Hn))) as [L F] end.
    split; [cbn; lia|]. constructor.
    + split; [left; reflexivity|]. destruct (T m (or_introl eq_refl)) as (tag & n & cs & E). rewrite E in Ww. inversion Ww; subst. eexists; reflexivity.
    + eapply Forall_impl; [|exact F]. intros f [A B]. split; [right; exact A|exact B].
Qed.
Lemma struct_wire : forall x n ms a n' fc attrs w, wireof x (TyStruct n ms) (AStruct a n' fc attrs) w ->
  exists fs, w = VStruct fs /\ wireoff x attrs (sorted_members ms) fs.
Proof. intros x n ms a n' fc attrs w W. inversion W; subst. eexists. split; [reflexivity|assumption]. Qed.
Lemma golden_sorted : sorted_members container_ms = container_ms.
Proof. reflexivity. Qed.
Lemma golden_wire : forall x zs w, wireof x container_ty (container zs) w ->
  exists fs, w = VStruct fs /\ (length fs <= 9)%nat /\ Forall (i32_field [1; 2; 3; 4; 5; 6; 7; 8; 9]) fs.
Proof.
  intros x zs w W. apply struct_wire in W. destruct W as (fs & -> & Wf). rewrite golden_sorted in Wf. exists fs. split; [reflexivity|].
  apply (enum_wires x _ container_ms fs Wf). intros m Hm. repeat (destruct Hm as [<-|Hm]; [repeat eexists|]). destruct Hm.
Qed.
Lemma i32_need : forall ids fs, Forall (i32_field ids) fs -> (need (VStruct fs) <= length fs + 2)%nat.
Proof.
  intros ids fs F. cbn [need]. induction F as [|f fs [_ (z & E)] F IH]; cbn [fold_right length]; [lia|]. rewrite E. cbn [need]. lia.
Qed.
Lemma i32_compact : forall ids fs, Forall (i32_field ids) fs -> forall i, cokv (VStruct [(i, VStruct fs)]).
Proof.
  intros ids fs F i. assert (A : no_false_field (VStruct fs) = true).
  { cbn [no_false_field]. apply forallb_forall. intros f Hf. rewrite Forall_forall in F. destruct (F f Hf) as [_ (z & ->)]. reflexivity. }
  assert (B : ids_kept (VStruct fs) = true).
  { cbn [ids_kept]. clear A. generalize 0 as n. induction F as [|[j u] fs [_ (z & E)] F IH]; intros n; [reflexivity|].
    cbn [snd] in E. subst u. rewrite Z.eqb_refl, orb_true_r. cbn [ids_kept andb]. apply IH. }
  split; [cbn [no_false_field forallb snd is_false] in *; rewrite A; reflexivity|].
  change (((negb (CompactSpec.short 0 i) || (0 =? 0)) && ids_kept (VStruct fs) && true) = true). rewrite B, orb_true_r. reflexivity.
Qed.
Lemma sbf_len : forall t i, length (sb_field t i) = 3%nat.
Proof. intros t i. unfold sb_field. cbn [length]. rewrite be_length. reflexivity. Qed.
Lemma i32_bsize : forall ids fs, Forall (i32_field ids) fs -> (length fs <= 9)%nat -> forall i, bsize (VStruct [(i, VStruct fs)]) <= 100.
Proof.
  intros ids fs F L i. unfold bsize. assert (G : (length (sb_val (VStruct fs)) <= 7 * length fs + 1)%nat).
  { cbn [sb_val]. rewrite app_length. cbn [length]. clear L. induction F as [|f fs [_ (z & E)] F IH]; [cbn; lia|].
    cbn [map List.concat]. rewrite E. cbn [sb_val]. rewrite !app_length, sbf_len. unfold sb_i32. rewrite be_length. cbn [length]. lia. }
  revert G. generalize (VStruct fs) as v. intros v G. cbn [sb_val map List.concat fst snd]. rewrite !app_length, sbf_len. cbn [length sb_stop]. lia.
Qed.
Lemma i32_shorts : forall J ids fs, Forall (i32_field ids) fs -> shorts J (2 + 81 * length fs) fs.
Proof.
  intros J ids fs F. induction F as [|[i u] fs [_ (z & E)] F IH]; [apply shorts_nil|]. cbn [snd] in E. subst u.
  eapply shorts_le; [apply shorts_cons; [discriminate|apply short_i32|exact IH]|]. cbn [length]. lia.
Qed.
Lemma i32_short : forall J ids fs, Forall (i32_field ids) fs -> (length fs <= 9)%nat -> forall i, short_val J (VStruct [(i, VStruct fs)]).
Proof.
  intros J ids fs F L i. eapply short_val_of; [apply short_struct, shorts_cons; [discriminate|apply short_struct, (i32_shorts J ids fs F)|apply shorts_nil]|]. lia.
Qed.
Lemma i32_smalls : forall J fs, Forall (i32_field [1; 2; 3; 4; 5; 6; 7; 8; 9]) fs -> sms J (2 + 81 * length fs) container_ms fs.
Proof.
  intros J fs F. induction F as [|[i u] fs [Hi (z & E)] F IH]; [apply sms_nil|]. cbn [snd] in E. subst u.
  eapply sms_le; [apply sms_cons; [|apply sm_i32|exact IH]|cbn [length]; lia].
  cbn [fst] in Hi. repeat (destruct Hi as [<-|Hi]; [vm_compute; reflexivity|]). destruct Hi.
Qed.
Lemma i32_small : forall J fs, Forall (i32_field [1; 2; 3; 4; 5; 6; 7; 8; 9]) fs -> (length fs <= 9)%nat ->
  small J (args_ty f_echo) (VStruct [(1, VStruct fs)]) /\ small J (result_ty f_echo) (VStruct [(0, VStruct fs)]).
Proof.
  intros J fs F L. split.
  - eapply small_of; [apply sm_struct, sms_cons; [vm_compute; reflexivity|apply sm_struct; exact (i32_smalls J fs F)|apply sms_nil]|]. lia.
  - eapply small_of; [apply sm_struct, sms_cons; [vm_compute; reflexivity|apply sm_struct; exact (i32_smalls J fs F)|apply sms_nil]|]. lia.
Qed.

Lemma golden_sendable : forall x fuel (oka okr : tval -> Prop) os, (14 <= fuel)%nat -> oka (VStruct []) -> okr (VStruct []) ->
  (forall fs, (length fs <= 9)%nat -> Forall (i32_field [1; 2; 3; 4; 5; 6; 7; 8; 9]) fs ->
     oka (VStruct [(1, VStruct fs)]) /\ okr (VStruct [(0, VStruct fs)])) ->
  (forall o, In o os -> sent_ok o) -> forall v, In v (map message os) -> sendable x fuel 1 container_ty oka okr v.
Proof.
  intros x fuel oka okr os Hf Na Nr Ok S v Iv. apply in_map_iff in Iv. destruct Iv as ([zs|] & <- & Io); cbn [message].
  - left. split; [apply golden_kept, (S _ Io)|]. intros w W. destruct (golden_wire x zs w W) as (fs & -> & L & F).
    destruct (Ok fs L F) as [A R]. split; [exact A|]. split; [exact R|]. pose proof (i32_need _ fs F). lia.
  - right. split; [reflexivity|]. split; [reflexivity|]. split; [exact Na|]. split; [exact Nr|lia].
Qed.
Lemma same_object : forall a n fc attrs v', same (AStruct a n fc attrs) v' -> exists a' fc' at', v' = AStruct a' n fc' at' /\
  map fst attrs = map fst at' /\ forall id, In id (map fst attrs) -> same (attribute attrs id) (attribute at' id).
Proof. intros a n fc attrs v' S. inversion S; subst; [discriminate|]. eauto 6. Qed.
Lemma golden_echoed : forall os rs, (forall o, In o os -> sent_ok o) -> given_back (map message os) rs -> echoed os rs.
Proof.
  intros os rs S G. unfold given_back in G. remember (map message os) as vs eqn:E. revert os S E.
  induction G as [|v r vs rs (attrs & -> & Sm) G IH]; intros os S E; (destruct os as [|o os]; [|]); try discriminate; [constructor|].
  injection E as Ev Es. constructor; [|apply IH; [intros p Hp; apply S; right; exact Hp|exact Es]].
  exists attrs. split; [reflexivity|]. subst v. destruct o as [zs|]; cbn [message holds_numbers] in *.
  - destruct (S _ (or_introl eq_refl)) as (L & _). apply same_object in Sm. destruct Sm as (a & fc & at' & -> & Ef & Es').
    exists a, fc. f_equal. symmetry.
    destruct (nine zs L) as (z1 & z2 & z3 & z4 & z5 & z6 & z7 & z8 & z9 & ->).
    apply same_attrs; [nodup|exact Ef|]. intros id Hid. specialize (Es' id Hid). symmetry.
    apply (same_of_scalar _ _ Es'). cbn in Hid. repeat (destruct Hid as [<-|Hid]; [reflexivity|]). destruct Hid.
  - exact (same_of_scalar _ _ Sm eq_refl).
Qed.
Lemma asked_for_map : forall os, asked_for os = map (fun v => (f_echo, [v])) (map message os).
Proof. intros os. unfold asked_for. rewrite map_map. reflexivity. Qed.

(** ** The golden service *)

(** Calls of echo, any number, with nil or with objects whose members are int32s or unset where a new object has them unset:
    each returns an object with the same members, or nil. *)
Theorem C114_golden_binary : forall H strict strictW x M cf fuel errtext
    (handle : H -> bytes -> list any -> (list (Z * any) * option bytes) * H) cut os h,
  orders x -> strictW = true \/ strict = false -> cuts cut -> (14 <= fuel)%nat -> echoes handle (lit "echo") ->
  (forall o, In o os -> sent_ok o) ->
  exists rs st, calls (binaryR strict) (binaryW strictW) nop (fun s => s) (fun s => s) x M cf fuel errtext handle
      echo_service bdrain bfeed cut 0 (asked_for os) (bstart h) = Ok (rs, st) /\
    echoed os rs.
Proof.
  intros H strict strictW x M cf fuel errtext handle cut os h Ho Hs Hc F4 He S.
  destruct (C114_binary_partial H strict strictW x M cf fuel errtext handle echo_service cut (lit "echo") 1 (lit "message") container_ty
    (map message os) h) as (rs & st & E & G); try assumption; try lia.
  - exact golden_func.
  - exact golden_names.
  - left. reflexivity.
  - exact golden_ordered.
  - apply golden_sendable; auto.
  - exists rs, st. rewrite asked_for_map. split; [exact E|apply golden_echoed; assumption].
Qed.
Print Assumptions C114_golden_binary.

Theorem C114_golden_compact : forall H x M cf fuel errtext
    (handle : H -> bytes -> list any -> (list (Z * any) * option bytes) * H) cut os h,
  orders x -> cuts cut -> (14 <= fuel)%nat -> echoes handle (lit "echo") ->
  (forall o, In o os -> sent_ok o) ->
  exists rs st, calls compactR compactW nop cfreshR cfreshW x M cf fuel errtext handle
      echo_service cdrain cfeed cut 0 (asked_for os) (cstart h) = Ok (rs, st) /\
    echoed os rs.
Proof.
  intros H x M cf fuel errtext handle cut os h Ho Hc F4 He S.
  destruct (C114_compact_partial H x M cf fuel errtext handle echo_service cut (lit "echo") 1 (lit "message") container_ty
    (map message os) h) as (rs & st & E & G); try assumption; try lia.
  - exact golden_func.
  - exact golden_names.
  - exact golden_plain.
  - left. reflexivity.
  - exact golden_ordered.
  - apply golden_sendable; [lia|split; reflexivity|split; reflexivity| |exact S]. intros fs _ F. split; apply (i32_compact _ fs F).
  - exists rs, st. rewrite asked_for_map. split; [exact E|apply golden_echoed; assumption].
Qed.
Print Assumptions C114_golden_compact.

Theorem C114_golden_framed : forall intw H strict strictW x M cf fuel errtext
    (handle : H -> bytes -> list any -> (list (Z * any) * option bytes) * H) cut os h,
  32 <= intw -> orders x -> strictW = true \/ strict = false -> cuts cut -> (14 <= fuel)%nat -> echoes handle (lit "echo") ->
  (forall o, In o os -> sent_ok o) ->
  exists rs st,
    calls (o_binaryR (read_all_over (framed_read intw)) strict) (o_binaryW framed_wr (copy_over framed_wr) strictW)
      fflush (fun s => s) (fun s => s) x M cf fuel errtext handle echo_service fdrain ffeed cut 0 (asked_for os) (fstart h) = Ok (rs, st) /\
    echoed os rs.
Proof.
  intros intw H strict strictW x M cf fuel errtext handle cut os h Wi Ho Hs Hc F4 He S.
  destruct (C114_framed_partial intw H strict strictW x M cf fuel errtext handle echo_service cut (lit "echo") 1 (lit "message") container_ty
    (map message os) h 100 100) as (rs & st & E & G); try assumption; try lia.
  - intros f Hf. split; [apply golden_func, Hf|]. destruct Hf as [<-|[]]. vm_compute. discriminate.
  - exact golden_names.
  - left. reflexivity.
  - exact golden_ordered.
  - apply golden_sendable; [lia|discriminate|discriminate| |exact S]. intros fs L F. split; apply (i32_bsize _ fs F L).
  - exists rs, st. rewrite asked_for_map. split; [exact E|apply golden_echoed; assumption].
Qed.
Print Assumptions C114_golden_framed.

Theorem C114_golden_json : forall H J x M cf fuel errtext
    (handle : H -> bytes -> list any -> (list (Z * any) * option bytes) * H) os h,
  orders x -> (14 <= fuel)%nat -> echoes handle (lit "echo") -> (forall o, In o os -> sent_ok o) ->
  exists rs st, calls (jsonR J) (jsonW J) nop jfreshR jfreshW x M cf fuel errtext handle
      echo_service jdrain jfeed (fun _ b => [b]) 0 (asked_for os) (jstart h) = Ok (rs, st) /\
    echoed os rs.
Proof.
  intros H J x M cf fuel errtext handle os h Ho F4 He S.
  destruct (C114_json_partial H J x M cf fuel errtext handle echo_service (lit "echo") 1 (lit "message") container_ty
    (map message os) h) as (rs & st & E & G); try assumption; try lia.
  - intros f Hf. split; [apply golden_func, Hf|]. destruct Hf as [<-|[]].
    destruct (plain_text J (lit "echo")) as [T L]; [apply printable_plain; vm_compute; reflexivity|].
    split; [exact T|]. cbn [fn_name f_echo]. unfold bytes in *. rewrite L. vm_compute. lia.
  - exact golden_names.
  - exact golden_plain.
  - left. reflexivity.
  - exact golden_ordered.
  - apply golden_sendable; auto.
    + eapply short_val_of; [apply short_struct, shorts_nil|lia].
    + eapply short_val_of; [apply short_struct, shorts_nil|lia].
    + intros fs L F. split; apply (i32_short J _ fs F L).
  - exists rs, st. rewrite asked_for_map. split; [exact E|apply golden_echoed; assumption].
Qed.
Print Assumptions C114_golden_json.

Theorem C114_golden_simple : forall H J x M cf fuel errtext
    (handle : H -> bytes -> list any -> (list (Z * any) * option bytes) * H) os h,
  orders x -> (14 <= fuel)%nat -> echoes handle (lit "echo") -> (forall o, In o os -> sent_ok o) ->
  exists rs st, calls (simpleR J) (simpleW J) nop sfreshR sfreshW x M cf fuel errtext handle
      echo_service jdrain jfeed (fun _ b => [b]) 0 (asked_for os) (sstart h) = Ok (rs, st) /\
    echoed os rs.
Proof.
  intros H J x M cf fuel errtext handle os h Ho F4 He S.
  destruct (C114_simple_partial H J x M cf fuel errtext handle echo_service (lit "echo") 1 (lit "message") container_ty
    (map message os) h) as (rs & st & E & G); try assumption.
  - intros f Hf. split; [apply golden_func, Hf|]. destruct Hf as [<-|[]].
    destruct (plain_strict J (lit "echo")) as [T L]; [apply printable_plain; vm_compute; reflexivity|].
    split; [exact T|]. cbn [fn_name f_echo]. unfold bytes in *. rewrite L. vm_compute. lia.
  - exact golden_names.
  - left. reflexivity.
  - exact golden_ordered.
  - apply golden_sendable; auto.
    + eapply small_of; [apply sm_struct, sms_nil|lia].
    + eapply small_of; [apply sm_struct, sms_nil|lia].
    + intros fs L F. exact (i32_small J fs F L).
  - exists rs, st. rewrite asked_for_map. split; [exact E|apply golden_echoed; assumption].
Qed.
Print Assumptions C114_golden_simple.

(** The handler of [Golden] and the values of a run: the hypotheses of the theorems above, and what is returned. *)
Definition ex_os : list (option (list Z)) :=
  [Some [1; 2; 3; 4; 5; 6; 7; 8; 9]; None;
   Some [-2147483648; 2147483647; enum_unset; enum_unset; 0; enum_unset; -1; 7; 43]].
(** The numbers of the objects returned; [None] for nil. *)
Definition numbers_of (v : any) : option (list Z) :=
  match v with
  | AStruct _ _ _ l => Some (map (fun f => match snd f with AEnum _ z _ => z | _ => 0 end) l)
  | _ => None
  end.
Definition numbers_back {S} (r : outcome (list cres * S)) : list (option (list Z)) :=
  match r with Ok (rs, _) => map (fun r => numbers_of (attribute (fst r) 0)) rs | _ => [] end.
Definition ex_binary os := calls (binaryR true) (binaryW true) nop (fun s => s) (fun s => s) ext0 64 5 20 errtext0 echo_handle
  echo_service bdrain bfeed (fun _ => pairs_of) 0 (asked_for os) (bstart 0).
Example C114_golden_case :
  orders ext0 /\ cuts (fun _ => pairs_of) /\ echoes echo_handle (lit "echo") /\ (forall o, In o ex_os -> sent_ok o) /\
  numbers_back (ex_binary ex_os) = ex_os /\
  numbers_back (calls compactR compactW nop cfreshR cfreshW ext0 64 5 20 errtext0 echo_handle
    echo_service cdrain cfeed (fun _ => pairs_of) 0 (asked_for ex_os) (cstart 0)) = ex_os /\
  numbers_back (calls (jsonR J0) (jsonW J0) nop jfreshR jfreshW ext0 64 5 20 errtext0 echo_handle
    echo_service jdrain jfeed (fun _ b => [b]) 0 (asked_for ex_os) (jstart 0)) = ex_os /\
  numbers_back (calls (simpleR J0) (simpleW J0) nop sfreshR sfreshW ext0 64 5 20 errtext0 echo_handle
    echo_service jdrain jfeed (fun _ b => [b]) 0 (asked_for ex_os) (sstart 0)) = ex_os.
Proof.
  split; [exact ext0_orders|]. split; [exact pairs_cuts|]. split; [intros h v; exists (h + 1); reflexivity|].
  split; [|split; [vm_compute; reflexivity|split; [vm_compute; reflexivity|split; vm_compute; reflexivity]]].
  intros o [<-|[<-|[<-|[]]]]; cbn [sent_ok]; auto.
  - split; [reflexivity|]. split; [repeat (apply Forall_cons; [left; vm_compute; split; congruence|]); apply Forall_nil|].
    intros i Hi. do 9 (destruct i as [|i]; [first [lia|vm_compute; congruence]|]). lia.
  - split; [reflexivity|]. split.
    + repeat (apply Forall_cons; [first [right; reflexivity|left; vm_compute; split; congruence]|]); apply Forall_nil.
    + intros i Hi. do 9 (destruct i as [|i]; [first [lia|vm_compute; congruence]|]). lia.
Qed.

(** It is false of objects whose last three members are unset: they are not written, and the object read is a new one, whose
    constructor gives them their defaults (ttypes.go 173-199). *)
Theorem C114_defaults_refuted : exists zs zs', length zs = 9%nat /\ Forall (fun z => in_s 32 z \/ z = enum_unset) zs /\
  numbers_back (ex_binary [Some zs]) = [Some zs'] /\ zs' <> zs.
Proof.
  exists [1; 2; 3; 4; 5; 6; enum_unset; enum_unset; enum_unset], [1; 2; 3; 4; 5; 6; 0; 1; 0].
  split; [reflexivity|]. split; [repeat (apply Forall_cons; [first [right; reflexivity|left; vm_compute; split; congruence]|]); apply Forall_nil|].
  split; [vm_compute; reflexivity|discriminate].
Qed.
Print Assumptions C114_defaults_refuted.

(** It is false of numbers that an int holds and an int32 does not: the low 32 bits come back. *)
Theorem C114_wide_refuted : exists zs zs', length zs = 9%nat /\ Forall (in_s 64) zs /\
  numbers_back (ex_binary [Some zs]) = [Some zs'] /\ zs' <> zs.
Proof.
  exists [4294967297; 2; 3; 4; 5; 6; 7; 8; 9], [1; 2; 3; 4; 5; 6; 7; 8; 9].
  split; [reflexivity|]. split; [repeat (apply Forall_cons; [vm_compute; split; congruence|]); apply Forall_nil|].
  split; [vm_compute; reflexivity|discriminate].
Qed.
Print Assumptions C114_wide_refuted.

(** The general theorems ask for types without sets and maps; of a set it is false: reading adds the elements one by one, and
    an element less than those there is left out (C37). *)
Definition f_set : func := echo_fn (lit "set") 1 (lit "s") (TySet TyI32).
Theorem C114_sets_refuted : exists l rs st attrs v,
  l = ASet 0 I32 2 [AInt32 2; AInt32 1] /\
  calls (binaryR true) (binaryW true) nop (fun s => s) (fun s => s) ext0 64 5 20 errtext0 echo_handle
    [f_set] bdrain bfeed (fun _ => pairs_of) 0 [(f_set, [l])] (bstart 0) = Ok (rs, st) /\
  rs = [(attrs, None)] /\ attribute attrs 0 = v /\ v = ASet 0 I32 1 [AInt32 2].
Proof. do 5 eexists. split; [reflexivity|]. split; [vm_compute; reflexivity|]. split; [reflexivity|]. split; vm_compute; reflexivity. Qed.
Print Assumptions C114_sets_refuted.

(** The general theorems: two methods, one over a list of lists of strings, the other an int64. *)
Definition t_rows : ty := TyList (TyList TyString).
Definition f_rows : func := echo_fn (lit "rows") 3 (lit "r") t_rows.
Definition f_num : func := echo_fn (lit "num") 1 (lit "n") TyI64.
Definition v_rows : any := AList 0 LIST [AList 0 STRING [AStr [104; 105]; AStr []]].
Example C114_case :
  (forall f, In f [f_rows; f_num] -> func_ok f) /\ NoDup (map fn_name [f_rows; f_num]) /\ ordered t_rows /\
  (forall v, In v [v_rows; ANil] -> sendable ext0 20 3 t_rows (fun _ => True) (fun _ => True) v) /\
  (exists rs st, calls (binaryR true) (binaryW true) nop (fun s => s) (fun s => s) ext0 64 5 20 errtext0 echo_handle
    [f_rows; f_num] bdrain bfeed (fun _ => pairs_of) 0 (map (fun v => (f_rows, [v])) [v_rows; ANil]) (bstart 0) = Ok (rs, st) /\
    map (fun r => attribute (fst r) 0) rs = [v_rows; ANil]).
Proof.
  split.
  { intros f [<-|[<-|[]]]; (split; [|split; [|split; [|split; [|split]]]]);
      try (intros m []; fail); try discriminate; try concrete; try (vm_compute; reflexivity);
      (constructor; [split; [nodup|split; [nodup|]]|]; intros m Hm; (destruct Hm as [<-|[]]); [split; [discriminate|cbn; lia]|repeat constructor]). }
  split; [nodup|]. split; [repeat constructor|]. split.
  { intros v [<-|[<-|[]]]; [left|right].
    - split.
      { constructor; [exact I|cbn; lia|]. intros u [<-|[]]. constructor; [exact I|cbn; lia|].
        intros u [<-|[<-|[]]]; (constructor; [concrete|cbn; lia]). }
      intros w W. split; [exact I|]. split; [exact I|]. unfold t_rows, v_rows in W.
      repeat match goal with
      | H : wireof _ _ _ _ |- _ => inversion H; clear H; subst
      | H : wireofs _ _ _ _ |- _ => inversion H; clear H; subst
      end; cbn; lia.
    - split; [reflexivity|]. split; [reflexivity|]. repeat split; lia. }
  do 2 eexists. split; [vm_compute; reflexivity|]. vm_compute. reflexivity.
Qed.
