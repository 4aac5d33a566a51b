(** C114: functions that return their argument, as the one of tests/generation/simple.thrift (PropGolden.v). *)
From Coq Require Import ZArith List Bool Lia Permutation.
From Coq Require Import ZifyBool ZifyNat.
From Verif Require Import Base Errors Transport Proto Arith TransportProofs Binary Compact Buffer BufIO
  Framed FramedProofs MemBuffer IOStream Http Socket ReadProg WriteErr Over Het OverSim OverInst OverRpc.
From Verif Require Import TField GoVal Compare TMap Values Gen GenSpec AppExc AppExcProofs Rpc RpcProofs RpcFits.
From Verif Require Import Codec BinarySpec CompactSpec CompactStruct PropFramed PropGen PropRpc PropService PropOver PropOverRpc WfDec Sizes PropFramedCalls.
From Verif Require Import Access Strconv JsonText JsonTextProofs BufRead BufReadProofs Json JsonSpec JsonRead JsonReadVal JsonWrite JsonForm
  PropJson SimpleGen PropSimpleGen PropJsonRpc PropSimpleRpc GenProofs GenInst GenRound.
Import ListNotations.
Open Scope list_scope.
Open Scope Z_scope.
Local Notation length := List.length.

(** Types without sets and maps, whose order and sizes a reader may change. *)
Inductive ordered : ty -> Prop :=
| or_bool : ordered TyBool | or_byte : ordered TyByte | or_i16 : ordered TyI16 | or_i32 : ordered TyI32
| or_i64 : ordered TyI64 | or_double : ordered TyDouble | or_string : ordered TyString | or_binary : ordered TyBinary
| or_enum tag n cs : ordered (TyEnum tag n cs)
| or_list t : ordered t -> ordered (TyList t)
| or_struct name ms : (forall m, In m ms -> ordered (m_ty m) /\ scalar (m_init m) = true) -> ordered (TyStruct name ms).

Lemma same_of_scalar : forall v v', same v v' -> scalar v = true -> v' = v.
Proof. intros v v' S K. inversion S; subst; [reflexivity|discriminate..]. Qed.
Lemma same_to_scalar : forall v v', same v v' -> scalar v' = true -> v' = v.
Proof. intros v v' S K. inversion S; subst; [reflexivity|discriminate..]. Qed.

Lemma f2_len : forall A B (P : A -> B -> Prop) l l', Forall2 P l l' -> length l = length l'.
Proof. intros A B P l l' F. induction F; cbn; congruence. Qed.
Lemma gemits_same : forall x t v, kept x t v -> ordered t -> forall m v', m_ty m = t -> same v v' -> gemits m v' = gemits m v.
Proof.
  intros x t v K O m v' E S.
  assert (Sc : scalar v = true -> gemits m v' = gemits m v) by (intro Sv; rewrite (same_of_scalar _ _ S Sv); reflexivity).
  destruct K; try (apply Sc; reflexivity); inversion S; subst; try discriminate; try solve [inversion O];
    unfold gemits, gisset; rewrite E; cbn [is_nil any_len]; [|reflexivity].
  match goal with F : Forall2 same _ _ |- _ => rewrite (f2_len _ _ _ _ _ F) end. reflexivity.
Qed.

Lemma kept_same : forall x t v, kept x t v -> ordered t -> forall v', same v v' ->
  kept x t v' /\ forall w, wireof x t v w -> wireof x t v' w.
Proof.
  intros x t v K. induction K; intros O v' S; try (rewrite (same_of_scalar _ _ S eq_refl); split; [constructor; assumption|auto]).
  - inversion O; subst. inversion S; subst; [discriminate|].
    match goal with F : Forall2 same l l' |- _ => pose proof (f2_len _ _ _ _ _ F) as Len; rename F into Fl end.
    assert (G : (forall u, In u l' -> kept x t u) /\ forall ws, wireofs x t l ws -> wireofs x t l' ws).
    { assert (IHl : forall u, In u l -> forall u', same u u' -> kept x t u' /\ forall w, wireof x t u w -> wireof x t u' w) by auto.
      clear - Fl IHl. induction Fl as [|u u' l l' Su Fl IH]; [split; [intros u []|auto]|].
      destruct IH as [I1 I2]; [intros; apply IHl; [right; assumption|assumption]|].
      destruct (IHl u (or_introl eq_refl) u' Su) as [Ku Wu]. split.
      - intros v [<-|Hv]; [exact Ku|apply I1, Hv].
      - intros ws Ww. inversion Ww; subst. constructor; auto. }
    destruct G as [G1 G2]. split; [constructor; [assumption|rewrite <- Len; assumption|assumption]|].
    intros w Ww. inversion Ww; subst. constructor; [rewrite <- Len; assumption|auto].
  - inversion O.
  - inversion O.
  - inversion O as [| | | | | | | | | |n0 ms0 Om]; subst. inversion S as [| | | |? ? ? ? a' fc' attrs' Ef Es]; subst; [discriminate|].
    assert (At : forall m, In m ms -> same (attribute attrs (m_id m)) (attribute attrs' (m_id m))).
    { intros m Hm. apply Es. rewrite H. apply in_map, Hm. }
    assert (Ge : forall m, In m ms -> gemits m (attribute attrs' (m_id m)) = gemits m (attribute attrs (m_id m))).
    { intros m Hm. destruct (gemits m (attribute attrs (m_id m))) eqn:G.
      - rewrite <- G. apply (gemits_same x (m_ty m)); [apply H0; assumption|apply Om, Hm|reflexivity|apply At, Hm].
      - rewrite (same_of_scalar _ _ (At m Hm)); [exact G|].
        rewrite <- (same_to_scalar _ _ (H2 m Hm G)); apply Om, Hm. }
    split.
    + constructor.
      * congruence.
      * intros m Hm G. rewrite Ge in G by exact Hm. apply (H1 m Hm G); [apply Om, Hm|apply At, Hm].
      * intros m Hm G. rewrite Ge in G by exact Hm. pose proof (H2 m Hm G) as Sm.
        rewrite (same_of_scalar _ _ (At m Hm)); [exact Sm|]. rewrite <- (same_to_scalar _ _ Sm); apply Om, Hm.
    + intros w Ww. inversion Ww as [| | | | | | | | | | | |? ? ? ? ? fs Wf]; subst. constructor.
      assert (Sub : forall m, In m (sorted_members ms) -> In m ms) by (intros m; apply in_sorted).
      clear Ww. revert fs Wf Sub. induction (sorted_members ms) as [|m l IH]; intros fs Wf Sub; inversion Wf; subst.
      * constructor.
      * apply wof_skip; [rewrite Ge; [assumption|apply Sub; left; reflexivity]|]. apply IH; [assumption|intros; apply Sub; right; assumption].
      * assert (Hm : In m ms) by (apply Sub; left; reflexivity).
        apply wof_take; [rewrite Ge; assumption|assumption| |].
        -- apply (H1 m Hm); [assumption|apply Om, Hm|apply At, Hm|assumption].
        -- apply IH; [assumption|intros; apply Sub; right; assumption].
Qed.

(** Being the same is handed on. *)
Lemma f2_trans : forall l, (forall u, In u l -> forall v1 v2, same u v1 -> same v1 v2 -> same u v2) ->
  forall l1 l2, Forall2 same l l1 -> Forall2 same l1 l2 -> Forall2 same l l2.
Proof.
  intros l IHl l1 l2 A. revert l2. induction A; intros l2 B; inversion B; subst; constructor.
  - eapply IHl; [left; reflexivity|eassumption..].
  - apply IHA; [intros; eapply IHl; [right; eassumption|eassumption..]|assumption].
Qed.
Lemma same_again : forall x t v, kept x t v -> ordered t -> forall v1 v2, same v v1 -> same v1 v2 -> same v v2.
Proof.
  intros x t v K. induction K; intros O v1 v2 S1 S2; try (rewrite (same_of_scalar _ _ S1 eq_refl) in S2; exact S2).
  - inversion O; subst. inversion S1; subst; [discriminate|]. inversion S2; subst; [discriminate|]. constructor.
    assert (IHl : forall u, In u l -> forall v1 v2, same u v1 -> same v1 v2 -> same u v2) by eauto.
    eapply f2_trans; [exact IHl|eassumption..].
  - inversion O.
  - inversion O.
  - inversion O as [| | | | | | | | | |n0 ms0 Om]; subst. inversion S1 as [| | | |? ? ? ? a1 fc1 at1 E1 Es1]; subst; [discriminate|].
    inversion S2 as [| | | |? ? ? ? a2 fc2 at2 E2 Es2]; subst; [discriminate|]. constructor; [congruence|].
    intros id Hid. pose proof Hid as Him. rewrite H in Him. apply in_map_iff in Him. destruct Him as (m & <- & Hm).
    specialize (Es1 _ Hid). specialize (Es2 (m_id m)). rewrite <- E1 in Es2. specialize (Es2 Hid).
    destruct (gemits m (attribute attrs (m_id m))) eqn:G.
    + eapply (H1 m Hm G); [apply Om, Hm|eassumption..].
    + rewrite (same_of_scalar _ _ Es1) in Es2; [exact Es2|]. rewrite <- (same_to_scalar _ _ (H2 m Hm G)); apply Om, Hm.
Qed.

(** ** Functions that return their argument *)

(** [T name(id: T message)], and a handler that returns the value it is given. *)
Definition echo_fn (name : bytes) (id : Z) (arg : bytes) (t : ty) : func := Fn name [Mem id arg false None t] (Some t) [] false.
Definition echoes {H} (handle : H -> bytes -> list any -> (list (Z * any) * option bytes) * H) (name : bytes) : Prop :=
  forall h v, exists h', handle h name [v] = (([(0, v)], None), h').
(** Each call returned what was sent. *)
Definition given_back (vs : list any) (rs : list cres) : Prop :=
  Forall2 (fun v r => exists attrs, r = (attrs, None) /\ same v (attribute attrs 0)) vs rs.

Section Echo.
Variable x : ext.
Variable name arg : bytes.
Variable id : Z.
Variable t : ty.
Let f := echo_fn name id arg t.
Hypothesis Ot : ordered t.

Lemma echo_chosen : forall attrs m, chosen f attrs m -> m = Mem 0 s_success false None t.
Proof.
  intros attrs m [[[[] _] _]|(_ & t' & E & ->)]. injection E as <-. reflexivity.
Qed.
Lemma kept_there : forall v, kept x t v -> is_nil v = false /\ ~ absent t v.
Proof.
  intros v K. split; [destruct K; reflexivity|]. intros [[_ ->]|(tag & n & cs & -> & ->)]; inversion K; subst.
  unfold in_s, enum_unset in *. cbn in *. lia.
Qed.
Lemma echo_emits : forall v i a, kept x t v -> gemits (Mem i a false None t) v = true.
Proof.
  intros v i a K. destruct (kept_there v K) as [N _]. unfold gemits. cbn [m_ty m_opt]. rewrite N, orb_true_r. cbn [andb orb].
  destruct t; try reflexivity. unfold gisset. cbn [m_ty]. inversion K; subst.
  unfold in_s, enum_unset in *. destruct (Z.eqb_spec z (-2147483649)); [cbn in *; lia|reflexivity].
Qed.
Lemma echo_args : forall v, kept x t v -> kept_args x f [v] /\
  forall wv, wireof x (TyStruct (args_name f) (fn_args f)) (args_val f [v]) wv -> exists w, wireof x t v w /\ wv = VStruct [(id, w)].
Proof.
  intros v K. assert (A : attribute [(id, v)] id = v) by (unfold attribute; cbn; rewrite Z.eqb_refl; reflexivity).
  pose proof (echo_emits v id arg K) as G. split.
  - split; [reflexivity|]. unfold args_val. cbn [fn_args f echo_fn map combine m_id]. constructor; [reflexivity|..].
    + intros m [<-|[]] _. cbn [m_id m_ty]. rewrite A. exact K.
    + intros m [<-|[]]. cbn [m_id]. rewrite A, G. discriminate.
  - intros wv W. unfold args_val in W. cbn [fn_args f echo_fn map combine m_id] in W.
    inversion W as [| | | | | | | | | | | |? ? ? ? ? fs Wf]; subst. cbn [sorted_members insert_m] in Wf.
    inversion Wf as [|? ? ? ? G0 R|? ? ? w ? _ _ Ww R]; subst; cbn [m_id m_ty] in *; rewrite A in *; [congruence|].
    inversion R; subst. exists w. split; [exact Ww|reflexivity].
Qed.
Lemma echo_result : forall v v', kept x t v -> schema_ok t -> orders x -> same v v' ->
  (forall m, chosen f [(0, v')] m -> kept x (m_ty m) (attribute [(0, v')] (m_id m))) /\
  forall rf, reply x f [(0, v')] rf -> exists w, wireof x t v w /\ rf = [(0, w)].
Proof.
  intros v v' K So Ho S. destruct (kept_same x t v K Ot v' S) as [K' Wk]. split.
  - intros m C. rewrite (echo_chosen _ _ C). exact K'.
  - intros rf Rp. inversion Rp as [m w [[] _]|t' w _ E Ww|t' _ E A|_ E]; subst; try discriminate.
    + injection E as <-. cbn in Ww. destruct (kept_round x 0 Ho _ _ K So) as (w0 & W0 & _).
      exists w0. split; [exact W0|]. rewrite (wireof_fun _ _ _ _ _ Ww (Wk _ W0)). reflexivity.
    + injection E as <-. destruct (proj2 (kept_there v' K') A).
Qed.
(** nil stands for no value. *)
Lemma nil_args : can_be_nil t = true -> kept_args x f [ANil] /\
  forall wv, wireof x (TyStruct (args_name f) (fn_args f)) (args_val f [ANil]) wv -> wv = VStruct [].
Proof.
  intros C. assert (A : attribute [(id, ANil)] id = ANil) by (unfold attribute; cbn; rewrite Z.eqb_refl; reflexivity).
  assert (G : gemits (Mem id arg false None t) ANil = false) by (unfold gemits; cbn [m_ty]; rewrite C; reflexivity). split.
  - split; [reflexivity|]. unfold args_val. cbn [fn_args f echo_fn map combine m_id]. constructor; [reflexivity|..].
    + intros m [<-|[]]. cbn [m_id]. rewrite A, G. discriminate.
    + intros m [<-|[]] _. cbn [m_id]. rewrite A. unfold m_init. cbn [m_def m_ty].
      destruct t; try discriminate; constructor; reflexivity.
  - intros wv W. unfold args_val in W. cbn [fn_args f echo_fn map combine m_id] in W.
    inversion W as [| | | | | | | | | | | |? ? ? ? ? fs Wf]; subst. cbn [sorted_members insert_m] in Wf.
    inversion Wf as [|? ? ? ? G0 R|? ? ? w ? G0 _ Ww R]; subst; cbn [m_id m_ty] in *; rewrite A in *; [|congruence].
    inversion R; subst. reflexivity.
Qed.
Lemma nil_result : can_be_nil t = true ->
  (forall m, chosen f [(0, ANil)] m -> absent (m_ty m) (attribute [(0, ANil)] (m_id m))) /\
  forall rf, reply x f [(0, ANil)] rf -> rf = [].
Proof.
  intros C. split.
  - intros m Cm. rewrite (echo_chosen _ _ Cm). left. split; [exact C|reflexivity].
  - intros rf Rp. inversion Rp as [m w [[] _]|t' w _ E Ww|t' _ E A|_ E]; subst; try reflexivity. cbn in Ww. inversion Ww.
Qed.
Lemma echo_back : forall H (handle : H -> bytes -> list any -> (list (Z * any) * option bytes) * H) vs h rs h',
  echoes handle name -> (forall v, In v vs -> kept x t v \/ v = ANil) ->
  serves handle (map (fun v => (f, [v])) vs) h rs h' -> given_back vs rs.
Proof.
  intros H handle vs. induction vs as [|v vs IH]; intros h rs h' He K S; inversion S; subst; [constructor|].
  constructor; [|eapply IH; [exact He|intros; apply K; right; assumption|eassumption]].
  match goal with Sv : served _ _ _ _ _ _ |- _ => inversion Sv as [vals attrs ? attrs' Fv E R|vals attrs text ? Fv E]; subst end;
    inversion Fv as [|? v' ? ? Sv' Fn]; subst; inversion Fn; subst; destruct (He h v') as [h0 E0]; cbn [fn_name f echo_fn] in E;
    rewrite E0 in E; [|discriminate].
  injection E as <- <-. exists attrs'. split; [reflexivity|]. destruct R as (_ & R & _).
  assert (S' : same v' (attribute attrs' 0)).
  2: { destruct (K v (or_introl eq_refl)) as [Kv| ->].
       - exact (same_again x t v Kv Ot _ _ Sv' S').
       - rewrite (same_of_scalar _ _ Sv' eq_refl) in S'. exact S'. }
  apply (R (Mem 0 s_success false None t)). right. split; [intros n [[] _]|]. exists t. split; reflexivity.
Qed.
End Echo.

(** What is asked of the values and of the room for them: [oka] of the value in a struct of the arguments, [okr] in one of
    the results. *)
Definition sendable (x : ext) (fuel : nat) (id : Z) (t : ty) (oka okr : tval -> Prop) (v : any) : Prop :=
  (kept x t v /\ forall w, wireof x t v w -> oka (VStruct [(id, w)]) /\ okr (VStruct [(0, w)]) /\ (need w + 3 <= fuel)%nat) \/
  (v = ANil /\ can_be_nil t = true /\ oka (VStruct []) /\ okr (VStruct []) /\ (3 <= fuel)%nat).
Lemma sent_kept : forall x fuel id t oka okr v, sendable x fuel id t oka okr v -> kept x t v \/ v = ANil.
Proof. intros x fuel id t oka okr v [[K _]|[-> _]]; auto. Qed.
Lemma need_one : forall i w n, (need w + 3 <= n)%nat -> (need (VStruct [(i, w)]) <= n)%nat.
Proof. intros i w n. cbn [need fold_right snd]. lia. Qed.
Lemma in_calls : forall (f g : func) args (vs : list any), In (g, args) (map (fun v => (f, [v])) vs) -> exists v, g = f /\ args = [v] /\ In v vs.
Proof. intros f g args vs I. apply in_map_iff in I. destruct I as (v & E & I). injection E as <- <-. exists v. auto. Qed.
Lemma one_val : forall v vals, Forall2 same [v] vals -> exists v', vals = [v'] /\ same v v'.
Proof. intros v vals F. inversion F as [|? v' ? ? S N]; subst. inversion N; subst. exists v'. auto. Qed.

Section Calls.
Context {H : Type}.
Variable handle : H -> bytes -> list any -> (list (Z * any) * option bytes) * H.
Variable x : ext.
Variable fuel : nat.
Variable fs : list func.
Variable name arg : bytes.
Variable id : Z.
Variable t : ty.
Variable vs : list any.
Let f := echo_fn name id arg t.
Let l := map (fun v => (f, [v])) vs.
Hypothesis Ho : orders x.
Hypothesis Fok : forall g, In g fs -> func_ok g.
Hypothesis Hf : In f fs.
Hypothesis Ot : ordered t.
Hypothesis He : echoes handle name.

Lemma echo_schema : schema_ok t.
Proof.
  pose proof (proj1 (Fok f Hf)) as S. inversion S as [| | | | | | | | | | | |? ? _ Sm]; subst.
  apply (Sm (Mem id arg false None t)). left. reflexivity.
Qed.
Lemma echo_results : forall oka okr, (forall v, In v vs -> sendable x fuel id t oka okr v) ->
  forall g args h vals attrs h', In (g, args) l -> True -> Forall2 same args vals -> handle h (fn_name g) vals = ((attrs, None), h') ->
     (forall m, chosen g attrs m -> kept x (m_ty m) (attribute attrs (m_id m)) \/
                                    absent (m_ty m) (attribute attrs (m_id m))) /\
     forall rf, reply x g attrs rf -> okr (VStruct rf) /\ (need (VStruct rf) <= fuel)%nat.
Proof.
  intros oka okr Hv g args h vals attrs h' Hl _ Fv E. destruct (in_calls _ _ _ _ Hl) as (v & -> & -> & Iv).
  destruct (one_val _ _ Fv) as (v' & -> & S). destruct (He h v') as [h0 E0]. cbn [fn_name f echo_fn] in E. rewrite E0 in E.
  injection E as <- <-. destruct (Hv v Iv) as [[K W]|(-> & C & Oa & Or & N)].
  - destruct (echo_result x name arg id t Ot v v' K echo_schema Ho S) as [R1 R2]. split; [intros m C; left; apply R1, C|].
    intros rf Rp. destruct (R2 rf Rp) as (w & Ww & ->). destruct (W w Ww) as (_ & O & N). split; [exact O|apply need_one, N].
  - rewrite (same_of_scalar _ _ S eq_refl). destruct (nil_result x name arg id t C) as [R1 R2].
    split; [intros m Cm; right; apply R1, Cm|]. intros rf Rp. rewrite (R2 rf Rp). split; [exact Or|clear - N; cbn; lia].
Qed.
Lemma echo_texts : forall Q : bytes -> Prop, forall g args h vals attrs text h', In (g, args) l -> True -> Forall2 same args vals ->
  handle h (fn_name g) vals = ((attrs, Some text), h') -> Q text.
Proof.
  intros Q g args h vals attrs text h' Hl _ Fv E. destruct (in_calls _ _ _ _ Hl) as (v & -> & -> & Iv).
  destruct (one_val _ _ Fv) as (v' & -> & S). destruct (He h v') as [h0 E0]. cbn [fn_name f echo_fn] in E. rewrite E0 in E. discriminate.
Qed.
Lemma echo_asks : forall oka okr, (forall v, In v vs -> sendable x fuel id t oka okr v) ->
  forall g args, In (g, args) l -> In g fs /\ fn_oneway g = false /\ kept_args x g args /\
     forall wv, wireof x (TyStruct (args_name g) (fn_args g)) (args_val g args) wv -> oka wv /\ (need wv <= fuel)%nat.
Proof.
  intros oka okr Hv g args Hl. destruct (in_calls _ _ _ _ Hl) as (v & -> & -> & Iv).
  destruct (Hv v Iv) as [[K W]|(-> & C & Oa & Or & N)].
  - destruct (echo_args x name arg id t Ot v K) as [Ka Wa]. split; [exact Hf|]. split; [reflexivity|]. split; [exact Ka|].
    intros wv Ww. destruct (Wa wv Ww) as (w & Ww' & ->). destruct (W w Ww') as (O & _ & N). split; [exact O|apply need_one, N].
  - destruct (nil_args x name arg id t Ot C) as [Ka Wa]. split; [exact Hf|]. split; [reflexivity|]. split; [exact Ka|].
    intros wv Ww. rewrite (Wa wv Ww). split; [exact Oa|clear - N; cbn; lia].
Qed.
End Calls.

(** Any number of calls: each returns the value it sent, whatever the handler does besides.  For types without sets and maps;
    the other functions of the service are any. *)
Theorem C114_binary_partial : forall H strict strictW x M cf fuel errtext
    (handle : H -> bytes -> list any -> (list (Z * any) * option bytes) * H) fs cut name id arg t vs h,
  orders x -> strictW = true \/ strict = false -> cuts cut -> (4 <= fuel)%nat ->
  (forall f, In f fs -> func_ok f) -> NoDup (map fn_name fs) ->
  In (echo_fn name id arg t) fs -> ordered t -> echoes handle name ->
  (forall v, In v vs -> sendable x fuel id t (fun _ => True) (fun _ => True) v) ->
  exists rs st, calls (binaryR strict) (binaryW strictW) nop (fun s => s) (fun s => s) x M cf fuel errtext handle
      fs bdrain bfeed cut 0 (map (fun v => (echo_fn name id arg t, [v])) vs) (bstart h) = Ok (rs, st) /\
    given_back vs rs.
Proof.
  intros H strict strictW x M cf fuel errtext handle fs cut name id arg t vs h Ho Hs Hc F4 Fok Nd Hf Ot He Hv.
  destruct (C47_binary_states_partial H strict strictW x M cf fuel errtext handle (fun _ => True) fs cut
    (map (fun v => (echo_fn name id arg t, [v])) vs) h) as (rs & st & E & Sv & _); auto.
  - intros g args h0 vals attrs h' Hl T Fv E.
    destruct (echo_results handle x fuel fs name arg id t vs Ho Fok Hf Ot He _ _ Hv g args h0 vals attrs h' Hl T Fv E) as [A B].
    split; [exact A|]. intros rf Rp. apply B, Rp.
  - intros g args h0 vals attrs text h'. exact (echo_texts handle name arg id t vs He (fun text => exc_ok _) g args h0 vals attrs text h').
  - intros g args Hl. destruct (echo_asks x fuel fs name arg id t vs Hf Ot _ _ Hv g args Hl) as (A & B & C & D).
    split; [exact A|]. split; [exact B|]. split; [exact C|]. intros wv Ww. apply D, Ww.
  - exists rs, st. split; [exact E|]. eapply (echo_back x); [exact Ot|exact He| |exact Sv]. intros v Iv. eapply sent_kept, Hv, Iv.
Qed.
Print Assumptions C114_binary_partial.

(** The same over the compact protocol, for values it carries. *)
Theorem C114_compact_partial : forall H x M cf fuel errtext
    (handle : H -> bytes -> list any -> (list (Z * any) * option bytes) * H) fs cut name id arg t vs h,
  orders x -> cuts cut -> (4 <= fuel)%nat ->
  (forall f, In f fs -> func_ok f) -> NoDup (map fn_name fs) ->
  (forall f m, In f fs -> In m (fn_args f ++ result_members f) -> no_binary (m_ty m)) ->
  In (echo_fn name id arg t) fs -> ordered t -> echoes handle name ->
  (forall v, In v vs -> sendable x fuel id t cokv cokv v) ->
  exists rs st, calls compactR compactW nop cfreshR cfreshW x M cf fuel errtext handle
      fs cdrain cfeed cut 0 (map (fun v => (echo_fn name id arg t, [v])) vs) (cstart h) = Ok (rs, st) /\
    given_back vs rs.
Proof.
  intros H x M cf fuel errtext handle fs cut name id arg t vs h Ho Hc F4 Fok Nd Nb Hf Ot He Hv.
  destruct (C47_compact_states_partial H x M cf fuel errtext handle (fun _ => True) fs cut
    (map (fun v => (echo_fn name id arg t, [v])) vs) h) as (rs & st & E & Sv & _); auto.
  - exact (echo_results handle x fuel fs name arg id t vs Ho Fok Hf Ot He _ _ Hv).
  - intros g args h0 vals attrs text h'. exact (echo_texts handle name arg id t vs He (fun text => exc_ok _) g args h0 vals attrs text h').
  - exact (echo_asks x fuel fs name arg id t vs Hf Ot _ _ Hv).
  - exists rs, st. split; [exact E|]. eapply (echo_back x); [exact Ot|exact He| |exact Sv]. intros v Iv. eapply sent_kept, Hv, Iv.
Qed.
Print Assumptions C114_compact_partial.

(** With a frame around each message, and frames arriving in any pieces. *)
Theorem C114_framed_partial : forall intw H strict strictW x M cf fuel errtext
    (handle : H -> bytes -> list any -> (list (Z * any) * option bytes) * H) fs cut name id arg t vs h a c,
  32 <= intw -> cuts cut -> a + c < 2 ^ 31 ->
  orders x -> strictW = true \/ strict = false -> (4 <= fuel)%nat ->
  (forall f, In f fs -> func_ok f /\ Z.of_nat (length (fn_name f)) + 12 <= a) -> NoDup (map fn_name fs) ->
  In (echo_fn name id arg t) fs -> ordered t -> echoes handle name ->
  (forall v, In v vs -> sendable x fuel id t (fun w => bsize w <= c) (fun w => bsize w <= c) v) ->
  exists rs st,
    calls (o_binaryR (read_all_over (framed_read intw)) strict) (o_binaryW framed_wr (copy_over framed_wr) strictW)
      fflush (fun s => s) (fun s => s) x M cf fuel errtext handle fs fdrain ffeed cut 0
      (map (fun v => (echo_fn name id arg t, [v])) vs) (fstart h) = Ok (rs, st) /\
    given_back vs rs.
Proof.
  intros intw H strict strictW x M cf fuel errtext handle fs cut name id arg t vs h a c Wi Hc Ac Ho Hs F4 Fok Nd Hf Ot He Hv.
  assert (Fok' : forall f, In f fs -> func_ok f) by (intros f If; apply Fok, If).
  destruct (C77_sizes_binary_states intw H strict strictW x M cf fuel errtext handle (fun _ => True) fs cut
    (map (fun v => (echo_fn name id arg t, [v])) vs) h a c) as (rs & st & E & Sv & _); auto.
  - exact (echo_results handle x fuel fs name arg id t vs Ho Fok' Hf Ot He _ _ Hv).
  - intros g args h0 vals attrs text h'.
    exact (echo_texts handle name arg id t vs He (fun text => exc_ok _ /\ bsize (failure g text) <= c) g args h0 vals attrs text h').
  - exact (echo_asks x fuel fs name arg id t vs Hf Ot _ _ Hv).
  - exists rs, st. split; [exact E|]. eapply (echo_back x); [exact Ot|exact He| |exact Sv]. intros v Iv. eapply sent_kept, Hv, Iv.
Qed.
Print Assumptions C114_framed_partial.

(** Over TJSONProtocol, messages arriving in one piece. *)
Theorem C114_json_partial : forall H J x M cf fuel errtext
    (handle : H -> bytes -> list any -> (list (Z * any) * option bytes) * H) fs name id arg t vs h,
  orders x -> (4 <= fuel)%nat ->
  (forall f, In f fs -> func_ok f /\ short_name J (fn_name f)) -> NoDup (map fn_name fs) ->
  (forall f m, In f fs -> In m (fn_args f ++ result_members f) -> no_binary (m_ty m)) ->
  In (echo_fn name id arg t) fs -> ordered t -> echoes handle name ->
  (forall v, In v vs -> sendable x fuel id t (short_val J) (short_val J) v) ->
  exists rs st, calls (jsonR J) (jsonW J) nop jfreshR jfreshW x M cf fuel errtext handle
      fs jdrain jfeed (fun _ b => [b]) 0 (map (fun v => (echo_fn name id arg t, [v])) vs) (jstart h) = Ok (rs, st) /\
    given_back vs rs.
Proof.
  intros H J x M cf fuel errtext handle fs name id arg t vs h Ho F4 Fok Nd Nb Hf Ot He Hv.
  assert (Fok' : forall f, In f fs -> func_ok f) by (intros f If; apply Fok, If).
  destruct (C99_small_states_partial H J x M cf fuel errtext handle (fun _ => True) fs
    (map (fun v => (echo_fn name id arg t, [v])) vs) h) as (rs & st & E & Sv & _); auto.
  - exact (echo_results handle x fuel fs name arg id t vs Ho Fok' Hf Ot He _ _ Hv).
  - intros g args h0 vals attrs text h'.
    exact (echo_texts handle name arg id t vs He (fun text => let e := MkExc _ _ in exc_ok e /\ short_val J (VStruct (exc_fields e))) g args h0 vals attrs text h').
  - exact (echo_asks x fuel fs name arg id t vs Hf Ot _ _ Hv).
  - exists rs, st. split; [exact E|]. eapply (echo_back x); [exact Ot|exact He| |exact Sv]. intros v Iv. eapply sent_kept, Hv, Iv.
Qed.
Print Assumptions C114_json_partial.

(** Over TSimpleJSONProtocol, likewise; the texts depend on the types. *)
Theorem C114_simple_partial : forall H J x M cf fuel errtext
    (handle : H -> bytes -> list any -> (list (Z * any) * option bytes) * H) fs name id arg t vs h,
  let f := echo_fn name id arg t in
  orders x ->
  (forall f, In f fs -> func_ok f /\ text_ok J Strict (fn_name f) /\ (length (json_quote (j_style J) (fn_name f)) <= 1000)%nat) ->
  NoDup (map fn_name fs) -> In f fs -> ordered t -> echoes handle name ->
  (forall v, In v vs -> sendable x fuel id t (small J (args_ty f)) (small J (result_ty f)) v) ->
  exists rs st, calls (simpleR J) (simpleW J) nop sfreshR sfreshW x M cf fuel errtext handle
      fs jdrain jfeed (fun _ b => [b]) 0 (map (fun v => (f, [v])) vs) (sstart h) = Ok (rs, st) /\
    given_back vs rs.
Proof.
  intros H J x M cf fuel errtext handle fs name id arg t vs h f Ho Fok Nd Hf Ot He Hv.
  assert (Fok' : forall f, In f fs -> func_ok f) by (intros g Ig; apply Fok, Ig).
  destruct (C113_small_calls_partial H J x M cf fuel errtext handle (fun _ => True) fs (map (fun v => (f, [v])) vs) h)
    as (rs & st & E & Sv & _); auto.
  - intros g args h0 vals Hl T Fv. destruct (handle h0 (fn_name g) vals) as [[attrs [text|]] h'] eqn:E.
    + exact (echo_texts handle name arg id t vs He (fun _ => False) g args h0 vals attrs text h' Hl T Fv E).
    + split; [exact I|]. destruct (in_calls _ _ _ _ Hl) as (v & Eg & _).
      pose proof (echo_results handle x fuel fs name arg id t vs Ho Fok' Hf Ot He _ _ Hv g args h0 vals attrs h' Hl T Fv E) as R.
      rewrite Eg in R |- *. exact R.
  - intros g args Hl. destruct (in_calls _ _ _ _ Hl) as (v & Eg & _).
    pose proof (echo_asks x fuel fs name arg id t vs Hf Ot _ _ Hv g args Hl) as R. rewrite Eg in R |- *. exact R.
  - exists rs, st. split; [exact E|]. eapply (echo_back x); [exact Ot|exact He| |exact Sv]. intros v Iv. eapply sent_kept, Hv, Iv.
Qed.
Print Assumptions C114_simple_partial.
