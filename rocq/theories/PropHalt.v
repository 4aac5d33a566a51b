(** C122: comparing, filling containers, reading any type, Process and a connection either return or panic. *)
From Coq Require Import ZArith List Bool Lia String Permutation.
From Coq Require Import ZifyBool ZifyNat.
From Verif Require Import Base Arith Errors Transport TransportProofs Proto Values WfDec Access Strconv JsonText JsonTextProofs
  Skip SkipProofs ReadProg F64 TField GoVal Names Compare TList TSet TMap Depth Gen GenSpec GenProofs GenInst GenRound Buffer Framed FramedProofs
  BinaryProofs BinarySpec Binary BinaryMsg PropBinary
  BufIO BufRead BufReadProofs Json JsonSpec JsonWrite JsonRead JsonReadVal JsonForm JsonTotal JsonSkip PropJson PropJsonTotal PropGen PropJsonGen
  Over Het OverSim OverInst OverRpc Unframe
  AppExc AppExcProofs PropRpc Rpc RpcProofs PropService PropJsonRpc Serve ServeProofs PropServe PropCalm PropCalmJson PropAnswer
  Compact CompactSkip WriteErr WriteEnds Tutorial PropTutorial PropUnframe.
Import ListNotations.
Local Open Scope list_scope.
Local Notation length := List.length.
Local Notation concat := List.concat.
Open Scope Z_scope.

(** ** Reading *)
Section Halt.
Context {S : Type}.
Variable R : rproto S.
Variable Inv : S -> Prop.
Variable mu : S -> nat.
Variable x : ext.
Hypothesis order_perm : forall tag l, Permutation l (x_order x tag l).

Definition ke {A} (n : nat) (Q : A -> Prop) (o : outcome (A * S)) : Prop :=
  match o with Ok (a, s) => Inv s /\ (mu s <= n)%nat /\ Q a | Panic => True | OutOfFuel => False end.
Definition any_result {A} (_ : A) : Prop := True.
Definition good {A} (Q : A -> Prop) (a : A + err) : Prop := match a with inl v => Q v | inr _ => True end.
Record halting : Prop := MkHalting {
  h_call : forall A (c : rcall A) s, ~ is_skip c -> Inv s -> ke (mu s) any_result (ReadProg.call R c s);
  h_field : forall s nm t i e s', Inv s -> rFieldBegin R s = Ok (nm, t, i, e, s') -> t <> STOP -> (mu s' < mu s)%nat;
  h_msg : forall s nm t i s', Inv s -> rMessageBegin R s = Ok (nm, t, i, None, s') -> nm <> [] -> (mu s' < mu s)%nat;
  h_skip : forall M f t d s, Inv s -> (2 * mu s + 2 <= f)%nat -> ke (mu s) any_result (skip R M f t d s) }.
Hypothesis K : halting.

Lemma ke_bind : forall A B n (Q : A -> Prop) (P : B -> Prop) (o : outcome (A * S)) (k : A * S -> outcome (B * S)),
  ke n Q o -> (forall a s, Q a -> Inv s -> (mu s <= n)%nat -> ke n P (k (a, s))) -> ke n P (obind o k).
Proof. intros A B n Q P [[a s]| |] k H Hk; cbn in *; auto. destruct H as (H1 & H2 & H3). auto. Qed.
Lemma ke_le : forall A n m (Q : A -> Prop) (o : outcome (A * S)), ke n Q o -> (n <= m)%nat -> ke m Q o.
Proof. intros A n m Q [[a s]| |] H L; cbn in *; auto. destruct H as (H1 & H2 & H3). repeat split; auto. lia. Qed.
Lemma ke_h : forall A B n (Q : A -> Prop) (P : B -> Prop) (m : hop S A) (k : A -> hop S B) s,
  ke n (good Q) (m s) -> (forall a s, Q a -> Inv s -> (mu s <= n)%nat -> ke n (good P) (k a s)) -> ke n (good P) (hbind m k s).
Proof.
  intros A B n Q P m k s Hm Hk. unfold hbind. eapply ke_bind; [exact Hm|]. intros [a|e] s1 Q1 H1 L1; [apply Hk; assumption|].
  cbn. auto.
Qed.
Lemma ke_wrap : forall A n (Q : A -> Prop) (m : hop S A) s, ke n (good Q) (m s) -> ke n (good Q) (hwrap m s).
Proof. intros A n Q m s H. unfold hwrap. eapply ke_bind; [exact H|]. intros [a|e] s1 Q1 H1 L1; cbn; auto. Qed.
Lemma ke_lift : forall A n (m : rop S A) s, ke n any_result (m s) -> ke n (good any_result) (hlift m s).
Proof. intros A n m s H. unfold hlift. eapply ke_bind; [exact H|]. intros [a [e|]] s1 _ H1 L1; cbn; unfold any_result; auto. Qed.
Lemma ke_do : forall n (m : wop S) s, ke n any_result (m s) -> ke n (good any_result) (hdo m s).
Proof. intros n m s H. unfold hdo. eapply ke_bind; [exact H|]. intros [e|] s1 _ H1 L1; cbn; unfold any_result; auto. Qed.
Lemma ke_ret : forall A n (Q : A -> Prop) (a : A) s, Inv s -> (mu s <= n)%nat -> Q a -> ke n (good Q) (@hret S A a s).
Proof. intros. cbn. auto. Qed.
Lemma ke_read : forall A (c : rcall A) n s, ~ is_skip c -> Inv s -> (mu s <= n)%nat -> ke n any_result (ReadProg.call R c s).
Proof. intros A c n s Hk Hs L. eapply ke_le; [apply (h_call K); assumption|exact L]. Qed.
Lemma ke_unit : forall (c : rcall unit) (m : wop S) n s, ReadProg.call R c = unit_op m -> ~ is_skip c ->
  Inv s -> (mu s <= n)%nat -> ke n any_result (m s).
Proof.
  intros c m n s E Hk Hs L. pose proof (h_call K _ c s Hk Hs) as Q. rewrite E in Q. unfold unit_op in Q.
  destruct (m s) as [[e s1]| |]; cbn in *; auto. destruct Q as (Q1 & Q2 & _). repeat split; auto. lia.
Qed.
Lemma ke_fill : forall A B (elem : hop S B) (put : A -> B -> outcome A) (P : A -> Prop) (Q : B -> Prop) m,
  (forall s, Inv s -> (mu s <= m)%nat -> ke m (good Q) (elem s)) ->
  (forall a b, P a -> Q b -> put a b <> OutOfFuel /\ forall a', put a b = Ok a' -> P a') ->
  forall n a s, P a -> Inv s -> (mu s <= m)%nat -> ke m (good P) (gfill n elem put a s).
Proof.
  intros A B elem put P Q m He Hp. induction n as [|n IH]; intros a s Ha Hs L; cbn [gfill]; [apply ke_ret; assumption|].
  apply ke_h with (Q := Q); [apply He; assumption|]. intros b s1 Hb H1 L1. destruct (Hp a b Ha Hb) as [Np Pp].
  apply ke_h with (Q := P).
  - unfold hout. destruct (put a b) as [a'| |]; cbn; auto.
  - intros a' s2 Ha' H2 L2. apply IH; assumption.
Qed.

Variable M : Z.
Variable cf : nat.
Ltac rd c := apply ke_lift, (ke_read _ c); [cbn; tauto|assumption|lia].
Ltac un c := apply ke_do, (ke_unit c); [reflexivity|cbn; tauto|assumption|lia].
Ltac rds := apply ke_wrap; first [ rd ReadProg.CBool | rd ReadProg.CByte | rd ReadProg.CI16 | rd ReadProg.CI32 | rd ReadProg.CI64 | rd ReadProg.CDouble
  | rd ReadProg.CString | rd ReadProg.CBinary | rd ReadProg.CStructBegin | rd ReadProg.CListBegin | rd ReadProg.CSetBegin | rd ReadProg.CMapBegin
  | un ReadProg.CStructEnd | un ReadProg.CFieldEnd | un ReadProg.CListEnd | un ReadProg.CSetEnd | un ReadProg.CMapEnd ].

Lemma ke_gread : forall f,
  (forall t s, Inv s -> (2 * mu s + height t + 1 <= f)%nat -> (height t + 2 <= cf)%nat ->
     ke (mu s) (good (within (height t))) (gread R x M cf f t s)) /\
  (forall ms a s, Inv s -> (2 * mu s + mheight ms + 1 <= f)%nat -> (mheight ms + 2 <= cf)%nat ->
     ke (mu s) (good any_result) (gread_fields R x M cf f ms a s)).
Proof.
  induction f as [|f [IH IHf]]; [split; intros; lia|]. split.
  - intros t s Hs L Lc. pose proof (height_1 t) as H1t.
    destruct t; cbn [gread];
      try (eapply ke_h; [rds|]; intros v s1 _ H1 L1; apply ke_ret; [assumption|lia|unfold within, mk_enum; cbn; lia]).
    + cbn [height] in *. eapply ke_h; [rds|]. intros [et n] s1 _ H1 L1.
      eapply ke_h with (Q := fun l => Forall (within (height t)) (tl_l l)).
      { apply ke_fill with (Q := within (height t)); [|intros a b Ha Hb|constructor|assumption|lia].
        - intros s2 H2 L2. eapply ke_le; [apply IH; [assumption|lia|lia]|lia].
        - split; [apply push_some; assumption|]. intros a' E. exact (push_within x order_perm (height t) _ _ _ (height_1 t) Ha Hb E). }
      intros l s2 Hl H2 L2. eapply ke_h; [rds|]. intros _ s3 _ H3 L3. apply ke_ret; [assumption|lia|]. apply within_list, Hl.
    + cbn [height] in *. eapply ke_h; [rds|]. intros [et n] s1 _ H1 L1.
      eapply ke_h with (Q := fun l => Forall (within (height t)) (ts_l l)).
      { apply ke_fill with (Q := within (height t)); [|intros a b Ha Hb|constructor|assumption|lia].
        - intros s2 H2 L2. eapply ke_le; [apply IH; [assumption|lia|lia]|lia].
        - split; [apply (add_some x order_perm cf (height t)); auto using height_1; lia|].
          intros a' E. exact (add_within x order_perm cf (height t) (height_1 t) _ _ _ Ha Hb E). }
      intros l s2 Hl H2 L2. eapply ke_h; [rds|]. intros _ s3 _ H3 L3. apply ke_ret; [assumption|lia|]. apply within_set, Hl.
    + cbn [height] in *. set (d := Nat.max (height t1) (height t2)) in *.
      assert (D1 : (1 <= d)%nat) by (pose proof (height_1 t1); lia).
      eapply ke_h; [rds|]. intros [[k v] n] s1 _ H1 L1.
      eapply ke_h with (Q := deep2 d).
      { apply ke_fill with (Q := fun kv => within d (fst kv) /\ within d (snd kv)); [|intros a b Ha [Hb Hc]|split; constructor|assumption|lia].
        - intros s2 H2 L2. eapply ke_h with (Q := within d).
          { eapply ke_le; [|exact L2]. assert (W : ke (mu s2) (good (within (height t1))) (gread R x M cf f t1 s2)) by (apply IH; [assumption|lia|lia]).
            revert W. destruct (gread R x M cf f t1 s2) as [[[a|e] s3]| |]; cbn; auto. unfold within. intuition lia. }
          intros a s3 Ha H3 L3. eapply ke_h with (Q := within d).
          { eapply ke_le; [|exact L3]. assert (W : ke (mu s3) (good (within (height t2))) (gread R x M cf f t2 s3)) by (apply IH; [assumption|lia|lia]).
            revert W. destruct (gread R x M cf f t2 s3) as [[[b|e] s4]| |]; cbn; auto. unfold within. intuition lia. }
          intros b s4 Hb H4 L4. apply ke_ret; [assumption|lia|]. split; assumption.
        - split; [apply (set_some x order_perm cf d); auto; lia|]. intros a' E. exact (set_within x order_perm cf d D1 _ _ _ _ Ha Hb Hc E). }
      intros l s2 Hl H2 L2. eapply ke_h; [rds|]. intros _ s3 _ H3 L3. apply ke_ret; [assumption|lia|]. apply within_map, Hl.
    + rewrite height_struct in *. eapply ke_h; [rds|]. intros nm s1 _ H1 L1.
      eapply ke_h with (Q := any_result). { eapply ke_le; [apply IHf; [assumption|lia|lia]|lia]. }
      intros attrs s2 _ H2 L2. eapply ke_h; [rds|]. intros _ s3 _ H3 L3. apply ke_ret; [assumption|lia|]. unfold within. cbn. lia.
  - intros ms a s Hs L Lc. pose proof (mheight_1 ms) as H1t. rewrite gread_fields_S.
    pose proof (h_call K _ ReadProg.CFieldBegin s (fun f => f) Hs) as Q. cbn [ReadProg.call] in Q.
    destruct (rFieldBegin R s) as [[[[[nm t] i] e] s1]| |] eqn:E; cbn in Q; [|unfold hbind at 1; unfold hwrap at 1, hlift at 1; rewrite E; exact I|contradiction].
    destruct Q as (H1 & L1 & _). pose proof (h_field K s nm t i e s1 Hs E) as St.
    unfold hbind at 1. unfold hwrap at 1, hlift at 1. rewrite E. cbn [obind]. destruct e as [e|]; [cbn; auto|]. cbn [obind].
    match goal with |- ke _ _ ((if ?c then _ else _) _) => destruct c eqn:Es end; [cbn; unfold any_result; auto|].
    assert (Nt : t <> STOP) by (intros ->; discriminate Es). specialize (St Nt).
    assert (Sk : forall ty s2, Inv s2 -> (mu s2 <= mu s1)%nat -> ke (mu s1) any_result (skip_default R M f ty s2)).
    { intros ty s2 H2 L2. eapply ke_le; [apply (h_skip K); [exact H2|lia]|lia]. }
    assert (Rd : forall m s2, In m ms -> Inv s2 -> (mu s2 <= mu s1)%nat -> ke (mu s1) (good (within (height (m_ty m)))) (gread R x M cf f (m_ty m) s2)).
    { intros m s2 Hm H2 L2. pose proof (mheight_in ms m Hm). eapply ke_le; [apply IH; [exact H2|lia|lia]|lia]. }
    apply ke_le with (n := mu s1); [|lia].
    eapply ke_h with (Q := any_result).
    + destruct (find _ _) as [m|] eqn:Ef.
      * apply find_some in Ef. destruct Ef as [Hm _].
        match goal with |- ke _ _ ((if ?c then _ else _) _) => destruct c end.
        -- eapply ke_h; [apply ke_wrap, ke_do, Sk; auto|]. intros; apply ke_ret; auto; exact I.
        -- eapply ke_h; [apply ke_wrap, Rd; auto|]. intros; apply ke_ret; auto; exact I.
      * eapply ke_h; [apply ke_wrap, ke_do, Sk; auto|]. intros; apply ke_ret; auto; exact I.
    + intros a2 s2 _ H2 L2. eapply ke_h; [rds|]. intros _ s3 _ H3 L3.
      eapply ke_le; [apply IHf; [exact H3|lia|lia]|lia].
Qed.
End Halt.

(** ** Process and the loop of a server *)
Section Loop.
Context {SR SW H : Type}.
Variable R : rproto SR.
Variable Inv : SR -> Prop.
Variable mu : SR -> nat.
Variable x : ext.
Hypothesis order_perm : forall tag l, Permutation l (x_order x tag l).
Hypothesis K : halting R Inv mu.
Variable W : wproto SW.
Variable flush : wop SW.
Variable M : Z.
Variable cf fuel : nat.
Variable errtext : err -> bytes.
Variable handle : H -> bytes -> list any -> (list (Z * any) * option bytes) * H.
Variable fs : list func.
Hypothesis We : ends_all W.
Hypothesis Fe : endw flush.
Variable d : nat.
Hypothesis Fargs : forall f, In f fs -> (mheight (fn_args f) <= d)%nat.
Hypothesis Fres : forall f, In f fs -> (2 * mheight (result_members f) + 1 <= fuel)%nat.
Hypothesis Fname : forall f, In f fs -> fn_name f <> [].
Hypothesis Fcf : (d + 3 <= cf)%nat.

Definition pe (si : SR) (o : outcome (@pout SR SW H)) : Prop :=
  match o with
  | Ok p => Inv (p_in p) /\ (mu (p_in p) <= mu si)%nat /\ (p_success p = true -> (mu (p_in p) < mu si)%nat)
  | Panic => True
  | OutOfFuel => False
  end.
Lemma pe_process : forall h si so, Inv si -> (2 * mu si + d + 2 <= fuel)%nat ->
  pe si (process R W flush x M cf fuel errtext handle fs h si so).
Proof.
  intros h si so Hs Lf. unfold process.
  pose proof (h_call _ _ _ K _ ReadProg.CMessageBegin si (fun f => f) Hs) as Q. cbn [ReadProg.call] in Q.
  destruct (rMessageBegin R si) as [[[[[name t] seq] e] s1]| |] eqn:E; cbn in Q; [|exact I|contradiction].
  destruct Q as (H1 & L1 & _). cbn [obind].
  destruct e as [e|].
  { cbn. repeat split; auto. discriminate. }
  pose proof (h_msg _ _ _ K si name t seq s1 Hs E) as St.
  assert (End : forall s, Inv s -> ke Inv mu (mu s) any_result (rMessageEnd R s)).
  { intros s H0. apply (ke_unit R Inv mu K ReadProg.CMessageEnd); [reflexivity|cbn; tauto|exact H0|lia]. }
  assert (Err : forall name seq ex rr h' s, Inv s -> (mu s <= mu s1)%nat ->
    pe si (so' <- write_exception W flush name seq ex so ;; Ok (MkPout false (Some rr) h' s so'))).
  { intros name0 seq0 ex rr h' s H0 L0. pose proof (exception_ends W We flush Fe name0 seq0 ex so) as N.
    destruct (write_exception W flush name0 seq0 ex so) as [so'| |]; [|exact I|contradiction].
    cbn. repeat split; auto; [lia|discriminate]. }
  destruct (lookup_fn fs name) as [f|] eqn:L.
  - apply lookup_in in L. destruct L as [Hf <-]. specialize (St (Fname f Hf)). unfold process_fn.
    assert (G : ke Inv mu (mu s1) (good (within (height (TyStruct (args_name f) (fn_args f)))))
      (gread R x M cf fuel (TyStruct (args_name f) (fn_args f)) s1)).
    { pose proof (Fargs f Hf). apply (proj1 (ke_gread R Inv mu x order_perm K M cf fuel)); [exact H1| |]; rewrite height_struct; lia. }
    destruct (gread R x M cf fuel (TyStruct (args_name f) (fn_args f)) s1) as [[v s2]| |]; cbn in G; [|exact I|contradiction].
    destruct G as (H2 & L2 & _). cbn [obind]. pose proof (End s2 H2) as Q.
    destruct v as [args|e]; (destruct (rMessageEnd R s2) as [[e2 s3]| |]; cbn in Q; [|exact I|contradiction]); destruct Q as (H3 & L3 & _); cbn [obind].
    + match goal with |- context [handle h (fn_name f) ?v] => set (vals := v) end.
      destruct (handle h (fn_name f) vals) as [[attrs [text|]] h'] eqn:Eh; [apply Err; [exact H3|lia]|].
      cbv zeta. match goal with |- pe si ?o => assert (N : o <> OutOfFuel /\ forall p, o = Ok p -> p_in p = s3) end.
      { split.
        - apply obind_some; [apply (We (WcMessageBegin _ _ _))|]. intros [e3 o1] _.
          apply obind_some; [apply (endw_result W We), (Fres f Hf)|]. intros [e4 o2] _.
          apply obind_some; [apply (We WcMessageEnd)|]. intros [e5 o3] _. apply obind_some; [apply Fe|]. intros [e6 o4] _.
          destruct (first_error _ _); discriminate.
        - intros p. destruct (wMessageBegin W (fn_name f) REPLY seq so) as [[e3 o1]| |]; cbn [obind]; try discriminate.
          destruct (gwrite_result _ _ _ _ _ _ _) as [[e4 o2]| |]; cbn [obind]; try discriminate.
          destruct (wMessageEnd W o2) as [[e5 o3]| |]; cbn [obind]; try discriminate.
          destruct (flush o3) as [[e6 o4]| |]; cbn [obind]; try discriminate.
          destruct (first_error _ _); intro E0; injection E0 as <-; reflexivity. }
      match goal with |- pe si ?o => destruct o as [p| |]; [|exact I|destruct N as [N _]; contradiction] end.
      destruct N as [_ N]. specialize (N p eq_refl). unfold pe. rewrite N. repeat split; [exact H3|lia|intros _; lia].
    + apply Err; [exact H3|lia].
  - pose proof (h_skip _ _ _ K M fuel STRUCT M s1 H1 ltac:(lia)) as Q. unfold skip_default.
    destruct (skip R M fuel STRUCT M s1) as [[e2 s2]| |]; cbn in Q; [|exact I|contradiction]. destruct Q as (H2 & L2 & _). cbn [obind].
    pose proof (End s2 H2) as Q. destruct (rMessageEnd R s2) as [[e3 s3]| |]; cbn in Q; [|exact I|contradiction]. destruct Q as (H3 & L3 & _).
    cbn [obind]. apply Err; [exact H3|lia].
Qed.
Lemma pe_loop : forall stopped rounds n h si so, Inv si -> (2 * mu si + d + 2 <= fuel)%nat -> (mu si < rounds)%nat ->
  serve_loop x M cf fuel errtext handle fs stopped R W flush rounds n h si so <> OutOfFuel.
Proof.
  intros stopped. induction rounds as [|rounds IH]; intros n h si so Hs Lf Lr; [lia|].
  pose proof (pe_process h si so Hs Lf) as P. cbn [serve_loop].
  destruct (process R W flush x M cf fuel errtext handle fs h si so) as [p| |]; cbn in P; [|discriminate|contradiction].
  destruct P as (Hp & Lp & St). cbn [obind]. destruct (ends (stopped n) p) eqn:En; [discriminate|].
  assert (Sc : p_success p = true).
  { revert En. unfold ends. destruct (p_err p); [destruct (stopped n); cbn|]; destruct (p_success p); cbn; congruence. }
  specialize (St Sc). apply IH; [exact Hp|lia|lia].
Qed.
End Loop.

(** ** TBinaryProtocol and TJSONProtocol *)
Lemma ke_kt : forall S (Inv : S -> Prop) mu A n (o : outcome (A * S)), kt Inv mu n o -> ke Inv mu n any_result o.
Proof. intros S Inv mu A n o (a & s & -> & Hs & L). cbn. unfold any_result. auto. Qed.
Lemma halting_binary : forall strict, halting (binaryR strict) (fun _ => True) (fun r => length (content r)).
Proof.
  intro strict. pose proof (returning_binary strict) as [Rc Rf Rm Rs]. constructor; [|exact Rf|exact Rm|intros; apply ke_kt, Rs; assumption].
  intros A c s Hk Hs. assert (Dec : is_binary c \/ ~ is_binary c) by (destruct c; cbn; tauto).
  destruct Dec as [B|N]; [|apply ke_kt, Rc; auto]. destruct c; try destruct B.
  cbn [ReadProg.call binaryR rBinary]. unfold bReadBinary. destruct (bReadI32_mono s) as (n & e & r1 & -> & L1). cbn [obind].
  destruct e as [e|]; [cbn; unfold any_result; auto|]. destruct (n <? 0); [exact I|].
  destruct (read_all (Z.to_nat n) r1) as [[[c buf] e] r2] eqn:Ra. pose proof (read_all_any _ _ _ _ _ _ Ra) as (dd & D1 & _).
  cbn. rewrite D1, app_length in L1. unfold any_result. split; [exact I|]. split; [lia|exact I].
Qed.
Lemma halting_json : forall J, halting (jsonR J) (SI True) srem.
Proof.
  intro J. pose proof (returning_json J) as [Rc Rf Rm Rs]. constructor; [|exact Rf|exact Rm|intros; apply ke_kt, Rs; assumption].
  intros A c s Hk Hs. apply ke_kt, Rc; [exact Hk|discriminate|exact Hs].
Qed.

Lemma halting_compact : halting compactR (fun _ => True) clen.
Proof.
  assert (In0 : forall s : cr, cinv (fst s) false s) by (intros [r c]; split; [apply left_refl|discriminate]).
  assert (G : forall A (op : rop cr A) s, okish (negative_varint (fst s)) (op s) (fun '(_, _, s') => cinv (fst s) false s' /\ (clen s' <= clen s)%nat) ->
    ke (fun _ => True) clen (clen s) any_result (op s)).
  { intros A op s. destruct (op s) as [[[a e] s']| |]; cbn; unfold any_result; tauto. }
  assert (E0 : forall A (op : rop cr A), (forall s : cr, keeps clen (negative_varint (fst s)) (cinv (fst s)) op) -> forall s : cr,
    ke (fun _ => True) clen (clen s) any_result (op s)).
  { intros A op H s. apply G. apply (H s), In0. }
  assert (Kb : forall s : cr, ke (fun _ => True) clen (clen s) any_result (cReadBinary s)).
  { intros [r c]. unfold cReadBinary. destruct (varint32_left r c) as (v & e & r' & -> & L & _). cbn [obind]. apply left_len in L.
    destruct e; [unfold ke, any_result, clen; cbn [fst]; auto|]. destruct (v =? 0); [unfold ke, any_result, clen; cbn [fst]; auto|].
    destruct (v <? 0); [exact I|]. destruct (read_all (Z.to_nat v) r') as [[[n buf] e] r2] eqn:E2. apply read_all_left, left_len in E2.
    unfold ke, any_result, clen; cbn [fst]. split; [exact I|]. split; [lia|exact I]. }
  assert (Ks : forall s : cr, ke (fun _ => True) clen (clen s) any_result (cReadString s)).
  { intro s. pose proof (Kb s) as Q. unfold cReadString. destruct (cReadBinary s) as [[[v e] s']| |]; cbn in *; auto. }
  assert (Km : forall s : cr, match cReadMessageBegin s with
    | Ok (nm, _, _, _, s') => (clen s' <= clen s)%nat /\ (nm <> [] -> (clen s' < clen s)%nat) | Panic => True | OutOfFuel => False end).
  { intros [r c]. unfold cReadMessageBegin. destruct (byte_left r c) as (b & e & r1 & -> & L & Lt). apply left_len in L. cbn [obind].
    destruct (b =? COMPACT_PROTOCOL_ID) eqn:Eb; cbn [negb]; [|unfold clen; cbn [fst]; split; [exact L|intro N; destruct (N eq_refl)]].
    assert (Nb : b <> 0) by (intros ->; discriminate Eb). specialize (Lt Nb).
    destruct (byte_left r1 c) as (b2 & e2 & r2 & -> & L2 & _). apply left_len in L2. cbn [obind]. cbv zeta.
    destruct e2; [unfold clen; cbn [fst]; lia|]. destruct (negb _); [unfold clen; cbn [fst]; lia|].
    destruct (varint32_left r2 c) as (v & e3 & r3 & -> & L3 & _). apply left_len in L3. cbn [obind].
    destruct e3; [unfold clen; cbn [fst]; lia|]. pose proof (Ks (r3, c)) as Q.
    destruct (cReadString (r3, c)) as [[[nm e4] s4]| |]; unfold ke in Q; [|exact I|contradiction]. cbn [obind]. destruct Q as (_ & Q & _).
    unfold clen in *. cbn [fst] in *. lia. }
  constructor.
  - intros A c s Hk _.
    assert (Nop : ke (fun _ : cr => True) clen (clen s) any_result (unit_op nop s)) by (cbn; unfold any_result; auto).
    destruct c; cbn [ReadProg.call compactR rMessageBegin rMessageEnd rStructBegin rStructEnd rFieldBegin rFieldEnd
      rMapBegin rMapEnd rListBegin rListEnd rSetBegin rSetEnd rBool rByte rI16 rI32 rI64 rDouble rString rBinary];
      try exact Nop; try (destruct Hk; exact I); try apply Kb; try apply Ks;
      try (apply E0; intro s0; first [apply k_bool|apply k_byte|apply k_i16|apply k_i32|apply k_i64|apply k_double]).
    + specialize (Km s). destruct (cReadMessageBegin s) as [[[[[nm t] i] e] s']| |]; cbn; unfold any_result; tauto.
    + destruct s as [r c]. cbn. unfold any_result, clen. cbn. auto.
    + destruct s as [r c]. unfold unit_op, cReadStructEnd. destruct (lastField c); cbn; unfold any_result, clen; cbn; auto.
    + pose proof (k_field (fst s) false s (In0 s)) as Q. destruct (cReadFieldBegin s) as [[[[[nm t] i] e] s']| |]; unfold SkipProofs.okish in Q; unfold ke, any_result; tauto.
    + pose proof (k_map (fst s) false s (In0 s)) as Q. destruct (cReadMapBegin s) as [[[[k v] e] s']| |]; unfold SkipProofs.okish in Q; unfold ke, any_result; tauto.
    + pose proof (k_list (fst s) false s (In0 s)) as Q. destruct (cReadListBegin s) as [[[[k n] e] s']| |]; unfold SkipProofs.okish in Q; unfold ke, any_result; tauto.
    + pose proof (k_list (fst s) false s (In0 s)) as Q. destruct (cReadListBegin s) as [[[[k n] e] s']| |]; unfold SkipProofs.okish in Q; unfold ke, any_result; tauto.
  - intros s nm t i e s' _ E Nt. pose proof (k_field (fst s) false s (In0 s)) as Q. cbn [compactR rFieldBegin] in E. rewrite E in Q. unfold SkipProofs.okish in Q. tauto.
  - intros s nm t i s' _ E Nm. specialize (Km s). cbn [compactR rMessageBegin] in E. rewrite E in Km. tauto.
  - intros M f t d [r c] _ L. pose proof (skip_compact_keeps r M f t d c L) as Q.
    destruct (skip compactR M f t d (r, c)) as [[e s']| |]; unfold SkipProofs.okish in Q; [|exact I|contradiction].
    apply left_len in Q. unfold ke, any_result, clen. cbn [fst]. auto.
Qed.

(** ** Searching containers *)
Section Search.
Variable x : ext.
Hypothesis order_perm : forall tag l, Permutation l (x_order x tag l).
Variable fuel d : nat.
Hypothesis Hd : (1 <= d)%nat.
Hypothesis Hfuel : (d + 2 <= fuel)%nat.
Lemma find_idx_some : forall f l i, (forall v, In v l -> f v <> OutOfFuel) -> find_idx f l i <> OutOfFuel.
Proof.
  intros f. induction l as [|v l IH]; intros i H; cbn [find_idx]; [discriminate|]. apply obind_some; [apply H; left; reflexivity|].
  intros b _. destruct b; [discriminate|]. apply IH. intros u Hu. apply H. right. exact Hu.
Qed.
Lemma same_some : forall et u v, within d u -> within d v -> same_elem x fuel et u v <> OutOfFuel.
Proof.
  intros et u v Hu Hv. unfold same_elem. destruct (et =? BINARY); [destruct u; try discriminate; destruct v; discriminate|].
  destruct (IsBaseType et || IsEnum et); [apply go_eq_some|].
  destruct u; try discriminate; (apply obind_some; [apply (Compare_some x order_perm d); assumption|]; intros [c ok] _; discriminate).
Qed.
Lemma indexOf_some : forall p v, Forall (within d) (tl_l p) -> within d v -> tl_indexOf x fuel p v <> OutOfFuel.
Proof.
  intros p v Hp Hv. rewrite Forall_forall in Hp. unfold tl_indexOf. destruct (is_nil v) eqn:N.
  - try (apply find_idx_some; intros; discriminate); discriminate.
  - apply obind_some; [apply coerce_some|]. intros [w ok] E. assert (within d w) by (eapply coerce_within_d; eassumption).
    match goal with |- context [if ?c then _ else _] => destruct c end; [discriminate|].
    apply find_idx_some. intros u Hu. apply same_some; auto.
Qed.
Lemma ts_find_some : forall p v, Forall (within d) (ts_l p) -> within d v -> ts_find x fuel p v <> OutOfFuel.
Proof.
  intros p v Hp Hv. rewrite Forall_forall in Hp. unfold ts_find. destruct (is_nil v) eqn:N.
  - apply find_idx_some; intros; discriminate.
  - apply obind_some; [apply coerce_some|]. intros [w ok] E. assert (within d w) by (eapply coerce_within_d; eassumption).
    match goal with |- context [if ?c then _ else _] => destruct c end; [discriminate|].
    apply find_idx_some. intros u Hu. apply same_some; auto.
Qed.
Lemma gm_get_some : forall m k, gm_get m k <> OutOfFuel.
Proof.
  induction m as [|[k' v'] m IH]; intros k; cbn [gm_get]; [discriminate|]. apply obind_some; [apply go_eq_some|].
  intros b _. destruct b; [discriminate|apply IH].
Qed.
Lemma list_get_some : forall kt k l, within d k -> Forall (within2 d) l -> list_get x fuel kt k l <> OutOfFuel.
Proof.
  intros kt k l Hk. induction l as [|[k' v'] l IH]; intro Hl; cbn [list_get]; [discriminate|]. inversion Hl as [|? ? [H1 _] H2]; subst.
  apply obind_some; [|intros b _; destruct b; [discriminate|apply IH, H2]].
  unfold list_key_eq. cbn [fst] in H1.
  assert (C : forall p, (' (c, ok) <- Compare x fuel p k' k ;; Ok (ok && (c =? 0))) <> OutOfFuel).
  { intro p. apply obind_some; [apply (Compare_some x order_perm d); assumption|]. intros [c ok] _. discriminate. }
  destruct k'; try discriminate; repeat match goal with |- context [if ?c then _ else _] => destruct c end; try discriminate; try apply C.
  destruct k; discriminate.
Qed.
Lemma tm_Get_some : forall p k, deep2 d p -> within d k -> tm_Get x fuel p k <> OutOfFuel.
Proof.
  intros p k [Hl Hb] Hk. unfold tm_Get. cbv zeta. destruct (IsEmptyType _); [discriminate|]. destruct (is_nil k); [discriminate|].
  apply obind_some; [apply coerce_some|]. intros [uk ok] E. assert (within d uk) by (eapply coerce_within_d; eassumption).
  destruct (negb ok); [discriminate|]. destruct (tm_kt p =? BOOL).
  { destruct (tm_b p) as [|e m] eqn:Eb; [discriminate|]. destruct (key_typed _ _); [|discriminate].
    apply obind_some; [apply gm_get_some|]. discriminate. }
  destruct (go_map_type _).
  { destruct (negb _ && _); [discriminate|]. destruct (key_typed _ _); [|discriminate]. apply obind_some; [apply gm_get_some|]. discriminate. }
  destruct (mem _ _); [|discriminate]. apply obind_some; [apply list_get_some; assumption|]. discriminate.
Qed.
Lemma tm_Contains_some : forall p k, deep2 d p -> within d k -> tm_Contains x fuel p k <> OutOfFuel.
Proof.
  intros p k [Hl Hb] Hk. unfold tm_Contains. cbv zeta.
  apply obind_some; [apply coerce_some|]. intros [uk ok] E. assert (within d uk) by (eapply coerce_within_d; eassumption).
  destruct (negb ok); [discriminate|]. destruct (is_nil uk); [discriminate|]. destruct (IsEmptyType _); [discriminate|].
  destruct (go_map_type _).
  { destruct (negb _ && _); [discriminate|]. destruct (key_typed _ _); [|discriminate]. apply obind_some; [apply gm_get_some|]. discriminate. }
  destruct (mem _ _); [|discriminate]. apply obind_some; [apply list_get_some; assumption|]. discriminate.
Qed.
End Search.

(** ** C122 *)

(** TType.Compare needs as many nested calls as the values have levels of containers, and two; it then returns or
    panics, and the answer is the same whatever more is allowed. *)
Theorem C122_compare : forall x p i j, orders x ->
  let n := (Nat.max (adepth i) (adepth j) + 2)%nat in
  Compare x n p i j <> OutOfFuel /\ forall f, (n <= f)%nat -> Compare x f p i j = Compare x n p i j.
Proof.
  intros x p i j O n. assert (N : Compare x n p i j <> OutOfFuel).
  { apply (Compare_some x O (Nat.max (adepth i) (adepth j))); unfold within, n; lia. }
  split; [exact N|]. intros f L. apply Compare_more; assumption.
Qed.
Print Assumptions C122_compare.

(** The operations of lists, sets and maps that compare: none runs on for ever, and none puts in anything deeper than
    what it is given. *)
Theorem C122_containers : forall x fuel d, orders x -> (1 <= d)%nat -> (d + 2 <= fuel)%nat ->
  (forall p v, Forall (within d) (tl_l p) -> within d v ->
     tl_Push x p v <> OutOfFuel /\ tl_Contains x fuel p v <> OutOfFuel /\
     (forall p', tl_Push x p v = Ok p' -> Forall (within d) (tl_l p'))) /\
  (forall p v, Forall (within d) (ts_l p) -> within d v ->
     ts_Add x fuel p v <> OutOfFuel /\ ts_Contains x fuel p v <> OutOfFuel /\ ts_Remove x fuel p v <> OutOfFuel /\
     (forall p', ts_Add x fuel p v = Ok p' -> Forall (within d) (ts_l p'))) /\
  (forall p k v, Forall (within2 d) (tm_l p) -> Forall (within2 d) (tm_b p) -> within d k -> within d v ->
     tm_Set x fuel p k v <> OutOfFuel /\ tm_Get x fuel p k <> OutOfFuel /\ tm_Contains x fuel p k <> OutOfFuel /\
     (forall p', tm_Set x fuel p k v = Ok p' -> Forall (within2 d) (tm_l p') /\ Forall (within2 d) (tm_b p'))).
Proof.
  intros x fuel d O Hd Hf. split; [|split].
  - intros p v Hp Hv. split; [apply push_some|]. split.
    + unfold tl_Contains. apply obind_some; [apply (indexOf_some x O fuel d); assumption|discriminate].
    + intros p' E. exact (push_within x O d p v p' Hd Hp Hv E).
  - intros p v Hp Hv. split; [apply (add_some x O fuel d); assumption|]. split; [|split].
    + unfold ts_Contains. apply obind_some; [apply (ts_find_some x O fuel d); assumption|discriminate].
    + unfold ts_Remove. apply obind_some; [apply (ts_find_some x O fuel d); assumption|]. intros i _. destruct (i =? -1); discriminate.
    + intros p' E. exact (add_within x O fuel d Hd p v p' Hp Hv E).
  - intros p k v Hl Hb Hk Hv. assert (D : deep2 d p) by (split; assumption).
    split; [apply (set_some x O fuel d); assumption|]. split; [apply (tm_Get_some x O fuel d); assumption|].
    split; [apply (tm_Contains_some x O fuel d); assumption|]. intros p' E. exact (set_within x O fuel d Hd p k v p' D Hk Hv E).
Qed.
Print Assumptions C122_containers.

(** The reader generated for any type, containers and binary included: it returns or panics, on every input. *)
Theorem C122_read : forall t x M cf f (r : rt), orders x -> (height t + 2 <= cf)%nat -> (2 * length (content r) + height t + 1 <= f)%nat ->
  (forall strict, gread (binaryR strict) x M cf f t r <> OutOfFuel /\
     forall v r', gread (binaryR strict) x M cf f t r = Ok (inl v, r') -> within (height t) v /\ (length (content r') <= length (content r))%nat) /\
  (forall c, gread compactR x M cf f t (r, c) <> OutOfFuel /\
     forall v r' c', gread compactR x M cf f t (r, c) = Ok (inl v, (r', c')) -> within (height t) v /\ (length (content r') <= length (content r))%nat) /\
  (forall J, clean r -> gread (jsonR J) x M cf f t (json_r r) <> OutOfFuel /\
     forall v s', gread (jsonR J) x M cf f t (json_r r) = Ok (inl v, s') -> within (height t) v).
Proof.
  intros t x M cf f r O Lc Lf. split; [|split].
  - intro strict. pose proof (proj1 (ke_gread _ _ _ x O (halting_binary strict) M cf f) t r I Lf Lc) as Q.
    destruct (gread (binaryR strict) x M cf f t r) as [[[v|e] r']| |]; cbn in Q; (split; [try discriminate; try contradiction|]);
      intros v0 r0 E; try discriminate E. injection E as <- <-. tauto.
  - intro c. pose proof (proj1 (ke_gread _ _ _ x O halting_compact M cf f) t (r, c) I Lf Lc) as Q.
    destruct (gread compactR x M cf f t (r, c)) as [[[v|e] [r' c']]| |]; unfold ke, good, clen in Q; cbn [fst] in Q;
      (split; [try discriminate; try contradiction|]); intros v0 r0 c0 E; try discriminate E. injection E as <- <- <-. tauto.
  - intros J C. destruct (fresh_SI True r (fun _ => C)) as (_ & S2 & _ & R2).
    pose proof (proj1 (ke_gread _ _ _ x O (halting_json J) M cf f) t (json_r r) S2 ltac:(lia) Lc) as Q.
    destruct (gread (jsonR J) x M cf f t (json_r r)) as [[[v|e] r']| |]; cbn in Q; (split; [try discriminate; try contradiction|]);
      intros v0 r0 E; try discriminate E. injection E as <- <-. tauto.
Qed.
Print Assumptions C122_read.

(** The writer generated for any type, given any value at all, over any of the protocols, plain or framed, whatever the
    transport answers: it needs two nested calls for each level of the type, and returns or panics. *)
Theorem C122_write : forall t x f v, (2 * height t <= f)%nat ->
  (forall tf pf s, gwrite (wr_proto (GetWriter tf pf)) x f t v s <> OutOfFuel) /\
  (forall J s, gwrite (jsonW J) x f t v s <> OutOfFuel) /\
  (forall J s, gwrite (simpleW J) x f t v s <> OutOfFuel).
Proof.
  intros t x f v L. split; [|split].
  - intros tf pf. apply endw_gwrite; [apply ends_writer|exact L].
  - intro J. apply endw_gwrite; [apply ends_json|exact L].
  - intro J. apply endw_gwrite; [apply ends_simple|exact L].
Qed.
Print Assumptions C122_write.

(** Levels of the arguments and of the results of a service. *)
Definition service_height (fs : list func) (d : nat) : Prop :=
  forall f, In f fs -> (mheight (fn_args f) <= d)%nat /\ (mheight (result_members f) <= d)%nat.

(** A connection to a server of any service, over either protocol, plain or framed on either side, whatever its handler returns:
    its goroutine ends or panics.  (What it has sent when it ends: C104.) *)
Theorem C122_server : forall H intw it ot pf op x M cf fuel d errtext
    (handle : H -> bytes -> list any -> (list (Z * any) * option bytes) * H) fs stopped rounds h (r : rt),
  orders x -> service_height fs d -> (d + 3 <= cf)%nat ->
  (forall f, In f fs -> fn_name f <> []) -> (it = TFFramed -> busy r) ->
  (2 * length (content r) + 2 * d + 2 <= fuel)%nat -> (length (content r) < rounds)%nat ->
  processRequest x M cf fuel errtext handle fs stopped intw (MkTServer it ot pf op) rounds h r <> OutOfFuel.
Proof.
  intros H intw it ot pf op x M cf fuel d errtext handle fs stopped rounds h r O Ah Lc Nm Bu Lf Lr.
  assert (Fa : forall f, In f fs -> (mheight (fn_args f) <= d)%nat) by (intros f Hf; apply Ah, Hf).
  assert (Fr : forall f, In f fs -> (2 * mheight (result_members f) + 1 <= fuel)%nat) by (intros f Hf; destruct (Ah f Hf); lia).
  assert (G : forall r, (2 * length (content r) + d + 2 <= fuel)%nat -> (length (content r) < rounds)%nat ->
    processRequest x M cf fuel errtext handle fs stopped intw (MkTServer TFPlain ot pf op) rounds h r <> OutOfFuel).
  { clear r Bu Lf Lr. intros r Lf Lr. unfold processRequest. cbn [sv_in_t sv_out_t sv_in_p sv_out_p]. destruct (ends_writer ot op) as [We Fe].
    apply obind_some; [|intros [[h' si'] so'] _; discriminate].
    destruct pf as [ir iw|]; cbn [GetReader rd_proto rd_new rd_st].
    - apply (pe_loop _ _ _ x O (halting_binary ir) _ _ M cf fuel errtext handle fs We Fe d Fa Fr Nm Lc); [exact I|exact Lf|exact Lr].
    - apply (pe_loop _ _ _ x O halting_compact _ _ M cf fuel errtext handle fs We Fe d Fa Fr Nm Lc); [exact I|exact Lf|exact Lr]. }
  destruct it; [apply G; [lia|assumption]|]. rewrite C121_server. destruct (C121_no_more intw r (Bu eq_refl)) as [Ln _]. apply G; lia.
Qed.
Print Assumptions C122_server.

(** The same over TJSONProtocol, unless an error comes together with data. *)
Theorem C122_json_server : forall H J x M cf fuel d errtext
    (handle : H -> bytes -> list any -> (list (Z * any) * option bytes) * H) fs stopped rounds h (r : rt) w,
  orders x -> service_height fs d -> (d + 3 <= cf)%nat -> (forall f, In f fs -> fn_name f <> []) -> clean r ->
  (2 * length (content r) + 2 * d + 2 <= fuel)%nat -> (length (content r) < rounds)%nat ->
  serve_loop x M cf fuel errtext handle fs stopped (jsonR J) (jsonW J) nop rounds 0 h (json_r r) w <> OutOfFuel.
Proof.
  intros H J x M cf fuel d errtext handle fs stopped rounds h r w O Ah Lc Nm C Lf Lr.
  destruct (fresh_SI True r (fun _ => C)) as (_ & S2 & _ & R2).
  assert (Fa : forall f, In f fs -> (mheight (fn_args f) <= d)%nat) by (intros f Hf; apply Ah, Hf).
  assert (Fr : forall f, In f fs -> (2 * mheight (result_members f) + 1 <= fuel)%nat) by (intros f Hf; destruct (Ah f Hf); lia).
  apply (pe_loop _ _ _ x O (halting_json J) (jsonW J) nop M cf fuel errtext handle fs (ends_json J) (endw_nop _) d Fa Fr Nm Lc);
    [exact S2|lia|lia].
Qed.
Print Assumptions C122_json_server.

(** A function that takes a set of lists and returns nothing.  Two lists in a set are read, and the call is answered; a set
    with more elements declared than there are ends the connection; one of elements of type 99 makes Process panic. *)
Definition ex_put : func := Fn (lit "put") [Mem 1 (lit "s") false None (TySet (TyList TyI32))] None [] false.
Definition ex_put_handle (h : nat) (name : bytes) (args : list any) : (list (Z * any) * option bytes) * nat := (([], None), Datatypes.S h).
Example C122_case :
  let i := AList 1 LIST [AList 2 I32 [AInt32 1]; AList 3 I32 [AInt32 2]] in
  let j := AList 4 LIST [AList 5 I32 [AInt32 1]; AList 6 I32 [AInt32 3]] in
  (adepth i = 2%nat /\ Compare ext0 2 LIST i j = OutOfFuel /\ Compare ext0 4 LIST i j = Ok (-1, true)) /\
  orders ext0 /\ service_height [ex_put] 3 /\ (forall f, In f [ex_put] -> fn_name f <> []) /\
  (let call n b := bmsg true (lit "put") CALL n ++ [14; 0; 1] ++ b ++ [0] in
   let run b := processRequest ext0 64 8 400 (fun _ => lit "err") ex_put_handle [ex_put] (fun _ => false) 32
      (MkTServer TFPlain TFPlain (PFBinary true true) (PFBinary true true)) 100 0%nat [(b, None)] in
   run (call 7 ([15; 0; 0; 0; 2] ++ [8; 0; 0; 0; 1; 0; 0; 0; 5] ++ [8; 0; 0; 0; 1; 0; 0; 0; 6])) =
     Ok (1%nat, told (PFBinary true true) (MkAnswer (lit "put") REPLY 7 [])) /\
   run (call 8 [15; 0; 0; 0; 99]) =
     Ok (0%nat, told (PFBinary true true) (MkAnswer (lit "put") EXCEPTION 8 [(1, VStr (lit "err")); (2, VI32 7)])) /\
   run (call 9 ([99; 0; 0; 0; 1] ++ [8; 0; 0; 0; 0])) = Panic) /\
  (let call b := [130; 33; 7; 3] ++ lit "put" ++ [26] ++ b ++ [0] in
   let run b := processRequest ext0 64 8 400 (fun _ => lit "err") ex_put_handle [ex_put] (fun _ => false) 32
      (MkTServer TFFramed TFPlain PFCompact (PFBinary true true)) 100 0%nat [(frame b, None)] in
   run (call [41; 21; 10; 21; 12]) = Ok (1%nat, told (PFBinary true true) (MkAnswer (lit "put") REPLY 7 [])) /\
   run (call [249; 99]) =
     Ok (0%nat, told (PFBinary true true) (MkAnswer (lit "put") EXCEPTION 7 [(1, VStr (lit "err")); (2, VI32 7)]))).
Proof.
  cbn zeta. split; [split; [reflexivity|split; vm_compute; reflexivity]|]. split; [exact ext0_orders|].
  split; [intros f [<-|[]]; vm_compute; lia|]. split; [intros f [<-|[]]; discriminate|].
  split; [split; [vm_compute; reflexivity|split; vm_compute; reflexivity]|]. split; vm_compute; reflexivity.
Qed.
