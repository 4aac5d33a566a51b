(** Skip over the JSON protocols returns on every input. *)
From Coq Require Import ZArith List Bool Lia String.
From Coq Require Import ZifyBool ZifyNat.
From Verif Require Import Base Arith Errors Transport TransportProofs Proto BufIO BufRead BufReadProofs
  JsonText Strconv F64 GoVal Names Json Skip SkipProofs ReadProg JsonTotal.
Import ListNotations.
Local Open Scope list_scope.
Local Notation length := List.length.
Open Scope Z_scope.

Section Skip.
Variable Cl : Prop.
Notation SI := (SI Cl).
Notation B := (B Cl).

(** ** Calls that use up input *)
Lemma byte_un : forall b c u, b_un b = c :: u -> b_byte b = (inl c, b_advance 1 b).
Proof. intros b c u H. unfold b_byte. cbn [b_byte_loop]. rewrite H. rewrite H. reflexivity. Qed.
Lemma byte_un_rem : forall b c u, b_un b = c :: u -> (rem (snd (b_byte b)) + 1 = rem b)%nat.
Proof.
  intros b c u H. rewrite (byte_un _ _ _ H). cbn [snd]. apply advance_rem_eq. rewrite H. cbn [length]. lia.
Qed.

Definition strict {A} (Q : A -> option err -> Prop) (m : rop jr A) : Prop :=
  forall s a e s', SI s -> m s = Ok (a, e, s') -> Q a e -> (srem s' < srem s)%nat.

Lemma pre_strict : forall A (Q : A -> option err -> Prop) a k,
  (forall e, ~ Q a (Some e)) -> strict Q k -> strict Q (pre a k).
Proof.
  intros A Q a k Hq Hk s a' e s' Hs H Hqa. unfold pre in H.
  destruct (pre_value_ret Cl s Hs) as (e1 & s1 & E & S1 & R1). rewrite E in H. cbn [obind] in H.
  destruct e1 as [e1|].
  - injection H as <- <- <-. destruct (Hq _ Hqa).
  - specialize (Hk _ _ _ _ S1 H Hqa). lia.
Qed.

Lemma list_begin_strict : strict (fun a e => a = false /\ e = None) ParseListBegin.
Proof.
  apply pre_strict; [intros e [_ H]; discriminate|].
  intros [b l] a e s' [Hb Hl] H [-> ->]. cbn [fst snd] in *.
  destruct (b_peek 4 b) as [[p ok] b1] eqn:E. destruct (peek_spec _ _ _ _ _ _ Hb E) as (H1 & H2 & H3 & _).
  assert (G : (if ok && beq p (lit "null") then Ok (true, None, (b1, l)) else bad_data false (b1, l)) <>
      Ok (false, None, s')) by (destruct (ok && _); discriminate).
  destruct p as [|x p]; [destruct (G H)|].
  destruct (Z.eq_dec x 91) as [->|N].
  - destruct ok; [|discriminate]. injection H as <-. unfold srem. cbn [fst].
    destruct (b_un b1) as [|c u] eqn:U; [discriminate|].
    pose proof (byte_un_rem _ _ _ U). lia.
  - exfalso. apply G. rewrite <- H. clear - N. destruct x as [|x|x]; try reflexivity.
    repeat (destruct x as [x|x|]; try reflexivity). congruence.
Qed.

Lemma quoted_strict : forall body, bret Cl body -> strict (fun a _ => a <> []) (read_quoted body).
Proof.
  intros body Hbody. apply pre_strict; [congruence|].
  intros [b l] a e s' [Hb Hl] H Ha. cbn [fst snd] in *.
  destruct (b_peek 4 b) as [[p ok] b1] eqn:E. destruct (peek_spec _ _ _ _ _ _ Hb E) as (H1 & H2 & H3 & _).
  assert (G : (if beq p (lit "null") then
        match b_read 4 b1 with
        | (_, Some e, b2) => Ok ([], protocol_exc_from_os (Some e), (b2, l))
        | (_, None, b2) => post [] (b2, l)
        end
      else bad_data [] (b1, l)) <> Ok (a, e, s')).
  { destruct (beq p _); [|intros X; injection X; congruence].
    destruct (b_read 4 b1) as [[d e1] b2]. destruct e1; [intros X; injection X; congruence|].
    unfold post. destruct (ParsePostValue (b2, l)) as [[e2 s2]| |]; cbn [obind]; intros X; congruence. }
  destruct p as [|x p]; [destruct (G H)|].
  destruct (Z.eq_dec x 34) as [->|N].
  - destruct (b_un b1) as [|c u] eqn:U; [discriminate|].
    pose proof (byte_un_rem _ _ _ U). destruct (byte_snd _ b1 H1) as [X1 X2].
    destruct (Hbody _ X1) as ([v e1] & b2 & E2 & H4 & H5). rewrite E2 in H. cbn [obind] in H.
    destruct e1.
    + injection H as _ _ <-. unfold srem. cbn [fst]. lia.
    + destruct (post_ret Cl _ v (b2, l)) as (a3 & e3 & s3 & E3 & S3 & R3); [split; auto|].
      rewrite E3 in H. injection H as _ _ <-. unfold srem in *. cbn [fst] in *. lia.
  - exfalso. apply G. rewrite <- H. clear - N. destruct x as [|x|x]; try reflexivity.
    repeat (destruct x as [x|x|]; try reflexivity). congruence.
Qed.
Lemma string_strict : strict (fun a _ => a <> []) ReadString.
Proof. apply quoted_strict, string_body_ret. Qed.

(** Headers.  A container of positive size, and a field that is not STOP, takes up input. *)
Definition sized2 (a : Z * Z) (e : option err) : Prop := e = None /\ 0 < snd a.
Definition sized3 (a : Z * Z * Z) (e : option err) : Prop := e = None /\ 0 < snd a.
Definition field (a : bytes * Z * Z) (e : option err) : Prop := snd (fst a) <> STOP.

Ltac fin H := injection H as <- <- <-; cbn beta in *; lia.
Ltac no H Q := injection H as <- <- <-; destruct Q as [Q1 Q2]; cbn [snd] in *; first [discriminate|lia].

Lemma elem_list_strict : forall J, strict sized2 (ParseElemListBegin J).
Proof.
  intros J s a e s' Hs H Q. unfold ParseElemListBegin in H.
  destruct (list_begin_ret Cl s Hs) as (v & e1 & s1 & E1 & S1 & R1). rewrite E1 in H; cbn [obind] in H.
  destruct v; [no H Q|]. destruct e1; [no H Q|].
  pose proof (list_begin_strict _ _ _ _ Hs E1 (conj eq_refl eq_refl)) as X1.
  destruct (byte_ret Cl J s1 S1) as (t & e2 & s2 & E2 & S2 & R2). rewrite E2 in H; cbn [obind] in H.
  destruct e2; [fin H|].
  destruct (i64_ret Cl J s2 S2) as (n & e3 & s3 & E3 & S3 & R3). rewrite E3 in H; cbn [obind] in H. fin H.
Qed.
Lemma s_map_strict : forall J, strict sized3 (sReadMapBegin J).
Proof.
  intros J s a e s' Hs H Q. unfold sReadMapBegin in H.
  destruct (list_begin_ret Cl s Hs) as (v & e1 & s1 & E1 & S1 & R1). rewrite E1 in H; cbn [obind] in H.
  destruct v; [no H Q|]. destruct e1; [no H Q|].
  pose proof (list_begin_strict _ _ _ _ Hs E1 (conj eq_refl eq_refl)) as X1.
  destruct (byte_ret Cl J s1 S1) as (t & e2 & s2 & E2 & S2 & R2). rewrite E2 in H; cbn [obind] in H.
  destruct e2; [fin H|].
  destruct (byte_ret Cl J s2 S2) as (t' & e3 & s3 & E3 & S3 & R3). rewrite E3 in H; cbn [obind] in H.
  destruct e3; [fin H|].
  destruct (i64_ret Cl J s3 S3) as (n & e4 & s4 & E4 & S4 & R4). rewrite E4 in H; cbn [obind] in H. fin H.
Qed.
Lemma j_map_strict : forall J, strict sized3 (jReadMapBegin J).
Proof.
  intros J s a e s' Hs H Q. unfold jReadMapBegin in H.
  destruct (list_begin_ret Cl s Hs) as (v & e1 & s1 & E1 & S1 & R1). rewrite E1 in H; cbn [obind] in H.
  destruct v; [no H Q|]. destruct e1; [no H Q|].
  pose proof (list_begin_strict _ _ _ _ Hs E1 (conj eq_refl eq_refl)) as X1.
  destruct (string_ret Cl s1 S1) as (t & e2 & s2 & E2 & S2 & R2). rewrite E2 in H; cbn [obind] in H.
  destruct e2; [fin H|].
  destruct (string_ret Cl s2 S2) as (t' & e3 & s3 & E3 & S3 & R3). rewrite E3 in H; cbn [obind] in H.
  destruct e3; [fin H|].
  destruct (i64_ret Cl J s3 S3) as (n & e4 & s4 & E4 & S4 & R4). rewrite E4 in H; cbn [obind] in H. fin H.
Qed.
Lemma j_field_strict : forall J, strict field (jReadFieldBegin J).
Proof.
  intros J s a e s' Hs H Q. unfold jReadFieldBegin in H.
  destruct (b_un (fst s)) as [|x u]; [injection H as <- <- <-; destruct Q; reflexivity|].
  destruct ((x =? 125) || (x =? 93)); [injection H as <- <- <-; destruct Q; reflexivity|].
  destruct (i16_ret Cl J s Hs) as (id & e1 & s1 & E1 & S1 & R1). rewrite E1 in H; cbn [obind] in H.
  destruct e1; [injection H as <- <- <-; destruct Q; reflexivity|].
  destruct (object_start_ret Cl s1 S1) as (v & e2 & s2 & E2 & S2 & R2). rewrite E2 in H; cbn [obind] in H.
  destruct e2; [injection H as <- <- <-; destruct Q; reflexivity|].
  destruct (string_ret Cl s2 S2) as (ty & e3 & s3 & E3 & S3 & R3). rewrite E3 in H; cbn [obind] in H.
  assert (X3 : (srem s3 < srem s2)%nat); [|fin H].
  eapply string_strict; [exact S2|exact E3|].
  injection H as <- <- <-. intros ->. apply Q. reflexivity.
Qed.
Lemma s_field_strict : strict field sReadFieldBegin.
Proof.
  apply pre_strict; [intros e H; apply H; reflexivity|].
  intros [b l] a e s' [Hb Hl] H Q. cbn [fst snd] in *.
  pose proof (advance_B _ 1 b Hb) as H1. pose proof (advance_rem_eq 1 b) as R1.
  destruct (string_body_ret _ (b_advance 1 b) H1) as ([name e1] & b2 & E & H2 & R2).
  destruct (b_un b) as [|x u] eqn:U; [injection H as <- <- <-; destruct Q; reflexivity|].
  cbn [length] in R1. specialize (R1 ltac:(lia)).
  assert (G : (' (name, e, b2) <- ParseStringBody (b_advance 1 b) ;;
      match e with
      | Some _ => Ok ((name, STOP, 0), e, (b2, l))
      | None => post (name, GENERIC, -1) (b2, l)
      end) = Ok (a, e, s') -> (srem s' < srem (b, l))%nat).
  { rewrite E. cbn [obind]. unfold srem. cbn [fst]. destruct e1; [intros X; injection X as <- <- <-; cbn [fst]; lia|].
    destruct (post_ret Cl _ (name, GENERIC, -1) (b2, l)) as (a3 & e3 & s3 & E3 & S3 & R3); [split; auto|].
    rewrite E3. intros X; injection X as _ _ <-. unfold srem in *. cbn [fst] in *. lia. }
  clear R1 U.
  repeat first [exact (G H)|injection H as <- <- <-; destruct Q; reflexivity
    |match type of H with context [match ?x with _ => _ end] => is_var x; destruct x end].
Qed.

(** ** Skip *)
Section Generic.
Variable P : rproto jr.
Hypothesis Hbool : ret Cl (rBool P).
Hypothesis Hbyte : ret Cl (rByte P).
Hypothesis Hi16 : ret Cl (rI16 P).
Hypothesis Hi32 : ret Cl (rI32 P).
Hypothesis Hi64 : ret Cl (rI64 P).
Hypothesis Hdouble : ret Cl (rDouble P).
Hypothesis Hstring : ret Cl (rString P).
Hypothesis Hse : wret Cl (rStructEnd P).
Hypothesis Hfe : wret Cl (rFieldEnd P).
Hypothesis Hme : wret Cl (rMapEnd P).
Hypothesis Hle : wret Cl (rListEnd P).
Hypothesis Hsete : wret Cl (rSetEnd P).
Hypothesis Hsb : ret Cl (rStructBegin P).
Hypothesis Hfb : ret Cl (rFieldBegin P).
Hypothesis Hfb' : strict field (rFieldBegin P).
Hypothesis Hlb : ret Cl (rListBegin P).
Hypothesis Hlb' : strict sized2 (rListBegin P).
Hypothesis Hsetb : ret Cl (rSetBegin P).
Hypothesis Hsetb' : strict sized2 (rSetBegin P).
Hypothesis Hmb : ret Cl (rMapBegin P).
Hypothesis Hmb' : strict sized3 (rMapBegin P).
Variable M : Z.

Definition wret_at (m : wop jr) (s0 s : jr) : Prop :=
  exists e s', m s = Ok (e, s') /\ SI s' /\ (srem s' <= srem s0)%nat.

Lemma lift_skip : forall A (op : rop jr A), ret Cl op -> forall s, SI s ->
  wret_at (fun s => '(_, e, s1) <- op s ;; Ok (e, s1)) s s.
Proof.
  intros A op H s Hs. destruct (H s Hs) as (a & e & s1 & E & S1 & R1). exists e, s1. rewrite E. auto.
Qed.
Lemma repeat_skip : forall n body k, 
  (forall s, SI s -> (srem s <= k)%nat -> wret_at body s s) ->
  forall s, SI s -> (srem s <= k)%nat ->
  exists s', repeat_ignoring n body s = Ok s' /\ SI s' /\ (srem s' <= srem s)%nat.
Proof.
  induction n as [|n IH]; intros body k H s Hs L; cbn [repeat_ignoring].
  - exists s. auto.
  - destruct (H s Hs L) as (e & s1 & -> & S1 & R1). cbn [obind].
    destruct (IH body k H s1 S1 ltac:(lia)) as (s2 & -> & S2 & R2). exists s2. split; [auto|]. split; [auto|lia].
Qed.

(** The loop over the elements of a container, then the closing call *)
Lemma elements_skip : forall n body fin s0 s1,
  wret Cl fin -> SI s1 -> (srem s1 <= srem s0)%nat ->
  (0 < n -> forall s, SI s -> (srem s <= srem s1)%nat -> wret_at body s s) ->
  wret_at (fun s => s2 <- repeat_ignoring (Z.to_nat n) body s ;; fin s2) s0 s1.
Proof.
  intros n body fin s0 s1 Hfin S1 R1 Hbody. unfold wret_at.
  assert (X : exists s', repeat_ignoring (Z.to_nat n) body s1 = Ok s' /\ SI s' /\ (srem s' <= srem s1)%nat).
  { destruct (Z.ltb_spec 0 n).
    - eapply repeat_skip; eauto.
    - replace (Z.to_nat n) with 0%nat by lia. exists s1. cbn. auto. }
  destruct X as (s2 & -> & S2 & R2). cbn [obind].
  destruct (Hfin s2 S2) as (e & s3 & -> & S3 & R3). exists e, s3. split; [auto|]. split; [auto|lia].
Qed.

Theorem skip_ret : forall f,
  (forall t d s, SI s -> (2 * srem s + 2 <= f)%nat -> wret_at (skip P M f t d) s s) /\
  (forall d s, SI s -> (2 * srem s + 1 <= f)%nat ->
     exists s', skip_fields P M f d s = Ok s' /\ SI s' /\ (srem s' <= srem s)%nat).
Proof.
  induction f as [|f [IHs IHf]]; [split; intros; lia|]. split.
  - intros t d s Hs L. unfold wret_at.
    destruct (Z.eq_dec t STRUCT) as [->|N1]; [rewrite skip_struct|
    destruct (Z.eq_dec t MAP) as [->|N2]; [rewrite skip_map|
    destruct (Z.eq_dec t SET) as [->|N3]; [rewrite skip_set|
    destruct (Z.eq_dec t LIST) as [->|N4]; [rewrite skip_list|]]]].
    + destruct (Hsb s Hs) as (a & e & s1 & -> & S1 & R1). cbn [obind]. destruct e; [eauto 8|].
      destruct (IHf d s1 S1 ltac:(lia)) as (s2 & -> & S2 & R2). cbn [obind].
      destruct (Hse s2 S2) as (e & s3 & -> & S3 & R3). exists e, s3. split; [auto|]. split; [auto|lia].
    + destruct (Hmb s Hs) as ([[kt vt] n] & e & s1 & E & S1 & R1). rewrite E. cbn [obind]. destruct e; [eauto 8|].
      apply elements_skip; auto. intros Hn s' S' L'.
      assert (X : (srem s1 < srem s)%nat) by (eapply Hmb'; [exact Hs|exact E|split; auto]).
      unfold wret_at. destruct (IHs kt (d - 1) s' S' ltac:(lia)) as (e1 & s2 & -> & S2 & R2). cbn [obind].
      destruct (IHs vt M s2 S2 ltac:(lia)) as (e2 & s3 & -> & S3 & R3). exists e2, s3. split; [auto|]. split; [auto|lia].
    + destruct (Hsetb s Hs) as ([et n] & e & s1 & E & S1 & R1). rewrite E. cbn [obind]. destruct e; [eauto 8|].
      apply elements_skip; auto. intros Hn s' S' L'.
      assert (X : (srem s1 < srem s)%nat) by (eapply Hsetb'; [exact Hs|exact E|split; auto]).
      apply IHs; auto. lia.
    + destruct (Hlb s Hs) as ([et n] & e & s1 & E & S1 & R1). rewrite E. cbn [obind]. destruct e; [eauto 8|].
      apply elements_skip; auto. intros Hn s' S' L'.
      assert (X : (srem s1 < srem s)%nat) by (eapply Hlb'; [exact Hs|exact E|split; auto]).
      apply IHs; auto. lia.
    + cbn [skip].
      repeat match goal with
      | |- context [if ?c then _ else _] =>
        destruct c eqn:?; [first [lia | apply lift_skip; assumption | eexists _, _; split; [reflexivity|]; split; [assumption|lia]]|]
      end.
      eexists _, _; split; [reflexivity|]; split; [assumption|lia].
  - intros d s Hs L. rewrite skip_fields_S.
    destruct (Hfb s Hs) as ([[nm t] id] & e & s1 & E & S1 & R1). rewrite E. cbn [obind].
    destruct (t =? STOP) eqn:Et; [eauto|].
    assert (X : (srem s1 < srem s)%nat) by (eapply Hfb'; [exact Hs|exact E|unfold field; cbn [fst snd]; lia]).
    destruct (IHs t (d - 1) s1 S1 ltac:(lia)) as (e2 & s2 & -> & S2 & R2). cbn [obind].
    destruct (Hfe s2 S2) as (e3 & s3 & -> & S3 & R3). cbn [obind].
    destruct (IHf d s3 S3 ltac:(lia)) as (s4 & -> & S4 & R4). exists s4. split; [auto|]. split; [auto|lia].
Qed.
End Generic.

Hypothesis HCl : Cl.
Theorem json_skip_ret : forall J M f t d s, SI s -> (2 * srem s + 2 <= f)%nat ->
  wret_at (skip (jsonR J) M f t d) s s /\ wret_at (skip (simpleR J) M f t d) s s.
Proof.
  intros J M f t d s Hs L. split; (apply skip_ret; [..|exact Hs|exact L]);
  cbn [jsonR simpleR rMessageBegin rMessageEnd rStructBegin rStructEnd rFieldBegin rFieldEnd
    rMapBegin rMapEnd rListBegin rListEnd rSetBegin rSetEnd rBool rByte rI16 rI32 rI64 rDouble rString rBinary];
  first [ apply struct_begin_ret | apply j_field_ret | apply s_field_ret
        | apply j_map_ret | apply s_map_ret | apply elem_list_ret | apply bool_ret, HCl | apply byte_ret
        | apply i16_ret | apply i32_ret | apply i64_ret | apply num_ret | apply string_ret 
        | apply nop_ret | apply end_ret; reflexivity
        | apply j_field_strict | apply s_field_strict | apply j_map_strict | apply s_map_strict | apply elem_list_strict ].
Qed.
End Skip.
