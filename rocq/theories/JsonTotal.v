(** The JSON readers on arbitrary input: every read call returns. *)
From Coq Require Import ZArith List Bool Lia String.
From Coq Require Import ZifyBool ZifyNat.
From Verif Require Import Base Arith Errors Transport TransportProofs Proto BufIO BufRead BufReadProofs
  JsonText Strconv F64 GoVal Names Json ReadProg.
Import ListNotations.
Local Open Scope list_scope.
Local Notation length := List.length.
Open Scope Z_scope.

(** A transport that gives no error together with data. *)
Definition clean (r : rt) : Prop := Forall (fun ev => fst ev = [] \/ snd ev = None) r.

(** Bytes still to be read. *)
Definition rem (b : breader) : nat := length (b_un b ++ content (b_rt b)).

Section Total.
(** [Cl]: the transport is clean. *)
Variable Cl : Prop.

Definition B0 (b : breader) : Prop := length (b_array b) = buf_size /\ (Cl -> clean (b_rt b)).
Definition B (b : breader) : Prop := B0 b /\ (Cl -> b_err b = None).

Lemma array_len : forall b, length (b_array b) = (length (b_before b) + length (b_un b) + length (b_after b))%nat.
Proof. intros. unfold b_array. rewrite !app_length. lia. Qed.

Lemma tread_spec : forall n r d e r', tread n r = (d, e, r') ->
  content r = d ++ content r' /\ (length d <= n)%nat /\
  (clean r -> clean r' /\ (d = [] \/ e = None)) /\
  (r <> [] -> (0 < n)%nat -> (length r' + length (content r') < length r + length (content r))%nat) /\
  (r = [] -> d = [] /\ e = Some EEof /\ r' = []).
Proof.
  intros n r d e r' H. unfold tread in H. destruct r as [|[bs ev] r].
  - injection H as <- <- <-. repeat split; auto; try (cbn; lia). congruence.
  - unfold content. cbn [map List.concat]. destruct (Nat.ltb_spec n (length bs)).
    + apply pair_equal_spec in H as [H <-]. apply pair_equal_spec in H as [<- <-]. cbn [map List.concat fst].
      assert (E : length bs = (n + length (skipn n bs))%nat).
      { rewrite <- (firstn_skipn n bs) at 1. rewrite app_length, firstn_length. lia. }
      repeat split; try discriminate.
      * rewrite app_assoc, firstn_skipn. reflexivity.
      * rewrite firstn_length. lia.
      * inversion H; subst. constructor; auto. cbn [fst snd] in *. destruct H3 as [->| ->]; [cbn in *; lia|auto].
      * auto.
      * intros _ Hn. rewrite !app_length. cbn [length]. lia.
    + injection H as <- <- <-. repeat split; auto; try discriminate.
      * inversion H; auto.
      * inversion H; subst. auto.
      * intros _ Hn. rewrite app_length. cbn [length]. lia.
Qed.

Lemma fill_spec : forall b, B b -> B0 (b_fill b) /\ rem (b_fill b) = rem b /\ b_before (b_fill b) = [] /\
  (length (b_un b) <= length (b_un (b_fill b)))%nat /\
  (Cl -> b_err (b_fill b) = None \/ b_un (b_fill b) = b_un b) /\
  (b_err b = None -> (length (b_un b) < buf_size)%nat ->
     2 * (length (b_rt (b_fill b)) + length (content (b_rt (b_fill b)))) + 1 <
     2 * (length (b_rt b) + length (content (b_rt b))) \/
     b_err (b_fill b) <> None /\ b_un (b_fill b) = b_un b /\ b_rt (b_fill b) = b_rt b /\ b_rt b = [])%nat.
Proof.
  intros b [[H1 H2] H3]. unfold b_fill. rewrite array_len in H1.
  destruct (tread (buf_size - length (b_un b)) (b_rt b)) as [[d e] r'] eqn:E.
  apply tread_spec in E as (E1 & E2 & E3 & E4 & E5).
  unfold B0, rem. cbn [b_un b_rt b_before b_err].
  split; [split|split; [|split; [|split; [|split]]]].
  - rewrite array_len. cbn [b_before b_un b_after]. rewrite app_length, skipn_length, array_len. cbn [length]. lia.
  - intros C. apply E3; auto.
  - rewrite E1, <- app_assoc. reflexivity.
  - reflexivity.
  - rewrite app_length. lia.
  - intros C. destruct (E3 (H2 C)) as [_ [->| ->]]; [right; apply app_nil_r|left; auto].
  - intros _ Hl. destruct (b_rt b) as [|ev r0] eqn:Er.
    + destruct E5 as (-> & -> & ->); [reflexivity|]. right. rewrite app_nil_r. repeat split; auto. discriminate.
    + left. specialize (E4 ltac:(discriminate) ltac:(lia)). lia.
Qed.

Lemma read_err_B : forall b, B0 b -> B (snd (b_read_err b)).
Proof. intros b [H1 H2]. split; [split; [exact H1|exact H2]|]. reflexivity. Qed.
Lemma read_err_rem : forall b, rem (snd (b_read_err b)) = rem b.
Proof. reflexivity. Qed.
Lemma advance_B0 : forall n b, B0 b -> B0 (b_advance n b).
Proof.
  intros n b [H1 H2]. split; [|exact H2]. unfold b_array, b_advance in *. cbn [b_before b_un b_after].
  rewrite <- app_assoc. rewrite (app_assoc (firstn n (b_un b))), firstn_skipn. exact H1.
Qed.
Lemma advance_B : forall n b, B b -> B (b_advance n b).
Proof. intros n b [H1 H2]. split; [apply advance_B0; auto|exact H2]. Qed.
Lemma advance_rem : forall n b, (rem (b_advance n b) <= rem b)%nat.
Proof.
  intros. unfold rem, b_advance. cbn [b_un b_rt]. rewrite !app_length, skipn_length. lia.
Qed.
Lemma advance_rem_eq : forall n b, (n <= length (b_un b))%nat -> (rem (b_advance n b) + n = rem b)%nat.
Proof.
  intros. unfold rem, b_advance. cbn [b_un b_rt]. rewrite !app_length, skipn_length. lia.
Qed.
Lemma skip_ws_B : forall b, B b -> B (skip_ws b).
Proof. intros. apply advance_B; auto. Qed.
Lemma skip_ws_rem : forall b, (rem (skip_ws b) <= rem b)%nat.
Proof. intros. apply advance_rem. Qed.

(** Peek *)
Lemma peek_loop_spec : forall fuel n b, B b ->
  let b1 := b_peek_loop fuel n b in
  B0 b1 /\ rem b1 = rem b /\ ((n <= length (b_un b1))%nat -> B b1) /\
  (Cl -> fuel <> O -> (length (b_un b1) < n)%nat -> b_before b1 = []).
Proof.
  assert (G : forall fuel n b, B0 b -> (Cl -> b_err b <> None -> (length (b_un b) < n)%nat /\ b_before b = []) ->
    let b1 := b_peek_loop fuel n b in
    B0 b1 /\ rem b1 = rem b /\ ((n <= length (b_un b1))%nat -> B b1) /\
    (Cl -> fuel <> O \/ b_before b = [] -> (length (b_un b1) < n)%nat -> b_before b1 = [])).
  { induction fuel as [|fuel IH]; intros n b H0 H1; cbn [b_peek_loop].
    - split; [auto|]. split; [auto|]. split.
      + intros Hn. split; [auto|]. intros C. destruct (b_err b) eqn:E; auto. destruct (H1 C); [congruence|lia].
      + intros C [K|K] Hn; [lia|auto].
    - destruct (Nat.ltb_spec (length (b_un b)) n) as [L|L].
      + destruct (b_err b) eqn:E.
        * split; [auto|]. split; [auto|]. split; [lia|]. intros C _ _. apply H1; auto. congruence.
        * assert (Bb : B b) by (split; auto).
          destruct (fill_spec b Bb) as (F1 & F2 & F3 & F4 & F5 & F6).
          destruct (IH n (b_fill b) F1) as (G1 & G2 & G3 & G4).
          { intros C Hne. destruct (F5 C) as [X|X]; [congruence|]. rewrite X. auto. }
          split; [auto|]. split; [congruence|]. split; [auto|]. intros C _ Hn. apply G4; auto.
      + split; [auto|]. split; [auto|]. split.
        * intros _. split; [auto|]. intros C. destruct (b_err b) eqn:E; auto. destruct (H1 C); [congruence|lia].
        * lia. }
  intros fuel n b [H0 H1]. destruct (G fuel n b H0) as (G1 & G2 & G3 & G4).
  { intros C Hne. rewrite H1 in Hne by auto. congruence. }
  cbv zeta. split; [exact G1|]. split; [exact G2|]. split; [exact G3|].
  intros C Hf. apply G4; auto.
Qed.

Lemma peek_spec : forall n b p ok b1, B b -> b_peek n b = (p, ok, b1) ->
  B b1 /\ rem b1 = rem b /\ p = firstn n (b_un b1) /\
  (Cl -> (length (b_un b1) < n)%nat -> b_before b1 = []).
Proof.
  intros n b p ok b1 Hb H. unfold b_peek in H. cbv zeta in H.
  destruct (peek_loop_spec (S (S (length (b_rt b)))) n b Hb) as (G1 & G2 & G3 & G4).
  set (bb := b_peek_loop (S (S (length (b_rt b)))) n b) in *. clearbody bb.
  destruct (Nat.ltb_spec (length (b_un bb)) n) as [L|L].
  - apply pair_equal_spec in H as [H <-]. apply pair_equal_spec in H as [<- <-].
    split; [apply read_err_B; auto|]. split; [exact G2|]. split.
    + cbn. rewrite firstn_all2 by lia. reflexivity.
    + intros C _. cbn. apply G4; auto.
  - apply pair_equal_spec in H as [H <-]. apply pair_equal_spec in H as [<- <-].
    split; [auto|]. split; [exact G2|]. split; [reflexivity|]. intros; lia.
Qed.

(** ReadByte *)
Lemma byte_loop_spec : forall fuel b, B b ->
  let b1 := b_byte_loop fuel b in
  B0 b1 /\ rem b1 = rem b /\ (b_un b1 <> [] -> B b1).
Proof.
  assert (G : forall fuel b, B0 b -> (Cl -> b_err b <> None -> b_un b = []) ->
    let b1 := b_byte_loop fuel b in
    B0 b1 /\ rem b1 = rem b /\ (b_un b1 <> [] -> B b1)).
  { induction fuel as [|fuel IH]; intros b H0 H1; cbn [b_byte_loop].
    - split; [auto|]. split; [auto|]. intros Hn. split; [auto|]. intros C.
      destruct (b_err b) eqn:E; auto. destruct Hn. apply H1; auto. congruence.
    - destruct (b_un b) as [|c u] eqn:U.
      + destruct (b_err b) eqn:E; [rewrite U; split; [auto|]; split; [auto|congruence]|].
        assert (Bb : B b) by (split; auto).
        destruct (fill_spec b Bb) as (F1 & F2 & F3 & F4 & F5 & F6).
        destruct (IH (b_fill b) F1) as (G1 & G2 & G3).
        { intros C Hne. destruct (F5 C) as [X|X]; congruence. }
        split; [auto|]. split; [congruence|]. auto.
      + split; [auto|]. split; [auto|]. intros _. split; [auto|]. intros C.
        destruct (b_err b) eqn:E; auto. specialize (H1 C). discriminate H1. congruence. }
  intros fuel b [H0 H1]. apply G; auto. intros C Hne. rewrite H1 in Hne by auto. congruence.
Qed.
Lemma byte_spec : forall b, B b ->
  (exists c b1, b_byte b = (inl c, b1) /\ B b1 /\ (rem b1 + 1 = rem b)%nat /\ b_before b1 <> []) \/
  (exists e b1, b_byte b = (inr e, b1) /\ B b1 /\ (rem b1 <= rem b)%nat).
Proof.
  intros b Hb. unfold b_byte. destruct (byte_loop_spec (S (S (length (b_rt b)))) b Hb) as (G1 & G2 & G3).
  set (bb := b_byte_loop (S (S (length (b_rt b)))) b) in *. clearbody bb.
  destruct (b_un bb) as [|c u] eqn:U.
  - right. destruct (b_read_err bb) as [[e|] b2] eqn:E;
      (eexists _, b2; split; [reflexivity|]);
      replace b2 with (snd (b_read_err bb)) by (rewrite E; reflexivity);
      (split; [apply read_err_B; auto|rewrite read_err_rem; lia]).
  - left. exists c, (b_advance 1 bb). split; [reflexivity|]. split; [apply advance_B; apply G3; congruence|].
    split.
    + rewrite <- G2. apply advance_rem_eq. rewrite U. cbn [length]. lia.
    + cbn [b_advance b_before]. rewrite U. destruct (b_before bb); discriminate.
Qed.
Lemma unread_B : forall c b, B b -> b_before b <> [] -> B (b_unread c b).
Proof.
  intros c b [[H1 H2] H3] Hn. unfold b_unread. rewrite array_len in H1.
  destruct (b_un b) as [|c' u] eqn:U.
  - split; [split; [|exact H2]|exact H3]. rewrite array_len. cbn [b_before b_un b_after length].
    rewrite skipn_length, array_len, U. destruct (b_before b); [congruence|]. cbn [length] in *. lia.
  - split; [split; [|exact H2]|exact H3]. rewrite array_len. cbn [b_before b_un b_after length].
    rewrite firstn_length. destruct (b_before b); [congruence|]. cbn [length] in *. lia.
Qed.
(** Read *)
Lemma read_B : forall n b, B b -> B (snd (b_read n b)).
Proof.
  intros n b Hb. unfold b_read. destruct (b_un b) as [|c u] eqn:U; [|apply advance_B; auto].
  destruct (b_err b) eqn:E; [apply read_err_B; apply Hb|].
  destruct (fill_spec b Hb) as (F1 & F2 & F3 & F4 & F5 & F6).
  destruct (b_un (b_fill b)) as [|c u] eqn:U'; [apply read_err_B; auto|].
  apply advance_B. split; [auto|]. intros C. destruct (F5 C); congruence.
Qed.
Lemma read_rem : forall n b, B b -> (rem (snd (b_read n b)) <= rem b)%nat.
Proof.
  intros n b Hb. unfold b_read. destruct (b_un b) as [|c u] eqn:U; [|apply advance_rem].
  destruct (b_err b) eqn:E; [cbn [snd]; rewrite read_err_rem; lia|].
  destruct (fill_spec b Hb) as (F1 & F2 & F3 & F4 & F5 & F6).
  destruct (b_un (b_fill b)) as [|c u] eqn:U'; [cbn [snd]; rewrite read_err_rem; lia|].
  cbn [snd]. pose proof (advance_rem n (b_fill b)). lia.
Qed.

(** ReadBytes *)
Lemma upto_length : forall d s l, upto d s = Some l -> (0 < length l <= length s)%nat.
Proof.
  intros d. induction s as [|c s IH]; intros l H; [discriminate|]. cbn [upto] in H.
  destruct (c =? d).
  - assert (l = [c]) as -> by congruence. cbn. lia.
  - destruct (upto d s) as [l'|]; [|discriminate]. cbn [option_map] in H.
    assert (l = c :: l') as -> by congruence. specialize (IH _ eq_refl). cbn [length]. lia.
Qed.
Definition until_measure (b : breader) : nat :=
  2 * (length (b_rt b) + length (content (b_rt b))) +
  (if (buf_size <=? length (b_un b))%nat then 1 else 0) + (match b_err b with None => 1 | Some _ => 0 end).
Lemma until_loop_spec : forall fuel d acc b line e b1,
  B0 b -> (Cl -> b_err b <> None -> upto d (b_un b) = None) ->
  (until_measure b < fuel)%nat -> b_until_loop fuel d acc b = (line, e, b1) ->
  B b1 /\ (rem b1 <= rem b)%nat /\ (e = None -> rem b1 < rem b)%nat.
Proof.
  induction fuel as [|fuel IH]; intros d acc b line e b1 H0 H1 Hf H; [lia|].
  cbn [b_until_loop] in H. destruct (upto d (b_un b)) as [l|] eqn:Eu.
  - apply pair_equal_spec in H as [H <-]. apply pair_equal_spec in H as [_ <-].
    pose proof (upto_length _ _ _ Eu) as L. pose proof (advance_rem_eq (length l) b ltac:(lia)).
    split; [|split; [lia|intros _; lia]]. apply advance_B. split; [auto|]. intros C.
    destruct (b_err b) eqn:E; auto. specialize (H1 C ltac:(congruence)). congruence.
  - destruct (b_err b) as [e0|] eqn:E.
    + apply pair_equal_spec in H as [H <-]. apply pair_equal_spec in H as [_ <-].
      split; [apply read_err_B, advance_B0; auto|]. rewrite read_err_rem.
      pose proof (advance_rem (length (b_un b)) b). split; [lia|discriminate].
    + destruct (Nat.leb_spec buf_size (length (b_un b))) as [L|L].
      * apply IH in H as (G1 & G2 & G3).
        -- pose proof (advance_rem (length (b_un b)) b). split; [auto|]. split; [lia|]. intros ->. specialize (G3 eq_refl). lia.
        -- apply advance_B0; auto.
        -- intros C Hne. cbn in Hne. congruence.
        -- unfold until_measure in *. cbn [b_advance b_rt b_un b_err]. rewrite E in *.
          rewrite skipn_all2 by lia. cbn [length].
          replace (buf_size <=? length (b_un b))%nat with true in Hf by lia.
          replace (buf_size <=? 0)%nat with false; [lia|]. symmetry. apply Nat.leb_gt.
          destruct buf_size_pos as [k ->]. lia.
      * assert (Bb : B b) by (split; auto).
        destruct (fill_spec b Bb) as (F1 & F2 & F3 & F4 & F5 & F6).
        apply IH in H as (G1 & G2 & G3); auto.
        -- split; [auto|]. split; [lia|]. intros ->. specialize (G3 eq_refl). lia.
        -- intros C Hne. destruct (F5 C) as [X|X]; [congruence|]. rewrite X. exact Eu.
        -- unfold until_measure in *. rewrite E in *.
          replace (buf_size <=? length (b_un b))%nat with false in Hf by lia.
          destruct (F6 eq_refl L) as [X|(X1 & X2 & X3 & X4)].
          ++ destruct (buf_size <=? length (b_un (b_fill b)))%nat, (b_err (b_fill b)); lia.
          ++ rewrite X2, X3. replace (buf_size <=? length (b_un b))%nat with false by lia.
            destruct (b_err (b_fill b)); [lia|congruence].
Qed.
Lemma until_spec : forall d b line e b1, B b -> b_until d b = (line, e, b1) ->
  B b1 /\ (rem b1 <= rem b)%nat /\ (e = None -> rem b1 < rem b)%nat.
Proof.
  intros d b line e b1 Hb H. unfold b_until in H.
  eapply until_loop_spec; [apply Hb| | |exact H].
  - intros C Hne. rewrite (proj2 Hb C) in Hne. congruence.
  - unfold until_measure, b_fuel, content. destruct (b_err b), (buf_size <=? length (b_un b))%nat; lia.
Qed.

(** ** The protocols *)
Definition top_stack (l : list ctx) : Prop := exists l0, l = l0 ++ [TopLevel].
Definition SI (s : jr) : Prop := B (fst s) /\ top_stack (snd s).
Definition srem (s : jr) : nat := rem (fst s).
Definition wret (m : wop jr) : Prop := forall s, SI s ->
  exists e s', m s = Ok (e, s') /\ SI s' /\ (srem s' <= srem s)%nat.
Definition ret {A} (m : rop jr A) : Prop := forall s, SI s ->
  exists a e s', m s = Ok (a, e, s') /\ SI s' /\ (srem s' <= srem s)%nat.

Lemma top_cons : forall c l, top_stack l -> top_stack (c :: l).
Proof. intros c l [l0 ->]. exists (c :: l0). reflexivity. Qed.
Lemma top_set : forall c l, top_stack (c :: l) -> top_stack (after_value c :: l).
Proof.
  intros c l [[|c' l0] E]; cbn [app] in E.
  - injection E as -> ->. exists []. reflexivity.
  - injection E as -> ->. exists (after_value c' :: l0). reflexivity.
Qed.
Lemma top_tail : forall c l, top_stack (c :: l) -> c <> TopLevel -> top_stack l.
Proof.
  intros c l [[|c' l0] E] H; cbn [app] in E.
  - injection E as -> _. congruence.
  - injection E as _ ->. exists l0. reflexivity.
Qed.
Lemma top_nil : ~ top_stack [].
Proof. intros [[|c l] E]; discriminate. Qed.

Ltac si := split; [assumption|assumption].

Lemma pre_value_ret : wret ParsePreValue.
Proof.
  intros [b l] [Hb Hl]. cbn [fst snd] in *. unfold ParsePreValue.
  destruct l as [|c l]; [destruct (top_nil Hl)|].
  pose proof (skip_ws_B b Hb) as H1. pose proof (skip_ws_rem b) as H2.
  assert (SI (skip_ws b, c :: l)) as S1 by (split; auto).
  assert (SI (skip_ws (b_advance 1 (skip_ws b)), c :: l)) as S2.
  { split; auto. apply skip_ws_B, advance_B; auto. }
  assert (rem (skip_ws (b_advance 1 (skip_ws b))) <= rem b)%nat as R2.
  { pose proof (skip_ws_rem (b_advance 1 (skip_ws b))). pose proof (advance_rem 1 (skip_ws b)). lia. }
  assert (K : forall (e : option err) s', Ok (e, s') = Ok (e, s') -> SI s' -> (srem s' <= rem b)%nat ->
    exists e1 s1, Ok (e, s') = Ok (e1, s1) /\ SI s1 /\ (srem s1 <= srem (b, c :: l))%nat) by eauto.
  destruct (b_un (skip_ws b)) as [|x u]; [apply K; auto|].
  destruct c; cbv zeta;
    repeat match goal with |- context [if ?c then _ else _] => destruct c end; apply K; auto.
Qed.
Lemma post_value_ret : wret ParsePostValue.
Proof.
  intros [b l] [Hb Hl]. cbn [fst snd] in *. unfold ParsePostValue.
  destruct l as [|c l]; [destruct (top_nil Hl)|]. cbn [set_ctx].
  eexists _, _. split; [reflexivity|]. split; [split; cbn [fst snd]|].
  - apply skip_ws_B; auto.
  - apply top_set; auto.
  - apply skip_ws_rem.
Qed.
Lemma pre_ret : forall A (a : A) k, ret k -> ret (pre a k).
Proof.
  intros A a k Hk s Hs. unfold pre. destruct (pre_value_ret s Hs) as (e & s1 & -> & S1 & R1). cbn [obind].
  destruct e; [eauto 8|]. destruct (Hk s1 S1) as (a' & e & s2 & -> & S2 & R2).
  exists a', e, s2. split; [reflexivity|]. split; [auto|lia].
Qed.
Lemma post_ret : forall A (a : A), ret (post a).
Proof.
  intros A a s Hs. unfold post. destruct (post_value_ret s Hs) as (e & s1 & -> & S1 & R1). cbn [obind]. eauto 8.
Qed.

(** A result of a step on the buffer alone *)
Definition bret {A} (m : breader -> outcome (A * breader)) : Prop := forall b, B b ->
  exists a b', m b = Ok (a, b') /\ B b' /\ (rem b' <= rem b)%nat.

Lemma quoted_body_ret : forall fuel b, B b -> (rem b < fuel)%nat ->
  exists a b', ParseQuotedStringBody fuel b = Ok (a, b') /\ B b' /\ (rem b' <= rem b)%nat.
Proof.
  induction fuel as [|fuel IH]; intros b Hb Hf; [lia|]. cbn [ParseQuotedStringBody].
  destruct (b_until 34 b) as [[line e] b1] eqn:E. destruct (until_spec _ _ _ _ _ Hb E) as (H1 & H2 & H3).
  destruct e; [eauto 8|]. specialize (H3 eq_refl). destruct (Nat.even _); [eauto 8|].
  destruct (IH b1 H1 ltac:(lia)) as (a & b2 & -> & H4 & H5). cbn [obind].
  destruct a; eexists _, b2; (split; [reflexivity|]); (split; [auto|lia]).
Qed.
Lemma string_body_ret : bret (fun b => ParseStringBody b).
Proof.
  intros b Hb. unfold ParseStringBody.
  destruct (b_until 34 b) as [[line e] b1] eqn:E. destruct (until_spec _ _ _ _ _ Hb E) as (H1 & H2 & H3).
  destruct e; [eauto 8|]. destruct (Nat.even _).
  - destruct (json_unquote _); eauto 8.
  - destruct (quoted_body_ret (str_fuel b1) b1 H1) as (a & b2 & -> & H4 & H5).
    { unfold str_fuel, rem, content. lia. }
    cbn [obind]. destruct a as [s|e]; [destruct (json_unquote _)|]; eexists _, b2; (split; [reflexivity|]); (split; [auto|lia]).
Qed.
Lemma base64_body_ret : bret (fun b => ParseBase64EncodedBody b).
Proof.
  intros b Hb. unfold ParseBase64EncodedBody.
  destruct (b_until 34 b) as [[line e] b1] eqn:E. destruct (until_spec _ _ _ _ _ Hb E) as (H1 & H2 & H3).
  destruct e; [eauto 8|]. destruct (b64_decode _ _). eauto 8.
Qed.

Lemma if_null_spec : forall b, B b -> B (snd (readIfNull b)) /\ (rem (snd (readIfNull b)) <= rem b)%nat.
Proof.
  intros b Hb. unfold readIfNull. pose proof (skip_ws_B b Hb) as H1. pose proof (skip_ws_rem b) as H2.
  destruct (b_un (skip_ws b)) as [|x u]; [auto|]. destruct (x =? 110); [|auto].
  destruct (b_peek 4 (skip_ws b)) as [[p ok] b2] eqn:E. destruct (peek_spec _ _ _ _ _ H1 E) as (H3 & H4 & _).
  destruct (beq p _); cbn [snd].
  - split; [apply read_B; auto|]. pose proof (read_rem 4 b2 H3). lia.
  - split; [auto|lia].
Qed.
Lemma quote_next_B : forall b, B b -> B (readQuoteIfNext b) /\ (rem (readQuoteIfNext b) <= rem b)%nat.
Proof.
  intros b Hb. assert (G : readQuoteIfNext b = b \/ readQuoteIfNext b = b_advance 1 b).
  { unfold readQuoteIfNext. destruct (b_un b) as [|x u]; [auto|].
    repeat (match goal with |- context [match ?x with _ => _ end] => destruct x end; auto). }
  destruct G as [->| ->]; [auto|]. split; [apply advance_B; auto|apply advance_rem].
Qed.
Lemma literal_ret : forall got word v q b, B b ->
  B (snd (read_literal got word v q b)) /\ (rem (snd (read_literal got word v q b)) <= rem b)%nat.
Proof.
  intros got word v q b Hb. unfold read_literal. cbv zeta. set (n := (length word - length got)%nat). clearbody n.
  pose proof (read_B n b Hb) as H1. pose proof (read_rem n b Hb) as H2.
  destruct (b_read n b) as [[d e] b1]. cbn [snd] in *. destruct e; [auto|].
  destruct (beq _ _); [|auto]. destruct q; [|auto]. destruct (quote_next_B b1 H1). cbn [snd]. split; [auto|lia].
Qed.
Lemma unread_rem : forall c b, (rem (b_unread c b) <= rem b + 1)%nat.
Proof. intros. unfold b_unread, rem. destruct (b_un b); cbn [b_un b_rt app length]; lia. Qed.
Lemma numeric_ret : forall J fuel buf pt sg ex q b, B b -> (rem b < fuel)%nat ->
  exists a b', numeric_loop J fuel buf pt sg ex q b = Ok (a, b') /\ B b' /\ (rem b' <= rem b)%nat.
Proof.
  intros J. induction fuel as [|fuel IH]; intros buf pt sg ex q b Hb Hf; [lia|]. cbn [numeric_loop].
  destruct (byte_spec b Hb) as [(c & b1 & -> & H1 & H2 & H3)|(e & b1 & -> & H1 & H2)].
  - assert (Rec : forall buf pt sg ex q, exists a b',
      numeric_loop J fuel buf pt sg ex q b1 = Ok (a, b') /\ B b' /\ (rem b' <= rem b)%nat).
    { intros. destruct (IH buf0 pt0 sg0 ex0 q0 b1 H1 ltac:(lia)) as (a & b2 & -> & H4 & H5).
      eexists _, b2. split; [reflexivity|]. split; [auto|lia]. }
    assert (Bad : forall v : num * option err, exists a b',
      Ok (v, b1) = Ok (a, b') /\ B b' /\ (rem b' <= rem b)%nat).
    { intros. eexists _, b1. split; [reflexivity|]. split; [auto|lia]. }
    assert (Un : forall v : num * option err, exists a b',
      Ok (v, b_unread c b1) = Ok (a, b') /\ B b' /\ (rem b' <= rem b)%nat).
    { intros. eexists _, _. split; [reflexivity|]. split; [apply unread_B; auto|].
      pose proof (unread_rem c b1). lia. }
    assert (Lt : forall got word v, exists a b',
      Ok (read_literal got word v q b1) = Ok (a, b') /\ B b' /\ (rem b' <= rem b)%nat).
    { intros. destruct (literal_ret got word v q b1 H1) as [L1 L2].
      destruct (read_literal got word v q b1) as [a b2]. cbn [snd] in *.
      eexists _, b2. split; [reflexivity|]. split; [auto|lia]. }
    cbv zeta.
    repeat match goal with
    | |- context [if ?c then _ else _] => destruct c
    | |- context [match buf with _ => _ end] => destruct buf
    end; auto.
  - assert (Fin : forall v : num * option err, exists a b',
      Ok (v, b1) = Ok (a, b') /\ B b' /\ (rem b' <= rem b)%nat) by eauto 8.
    cbv zeta. destruct e; try apply Fin. destruct buf; apply Fin.
Qed.
Lemma readNumeric_ret : forall J, bret (readNumeric J).
Proof.
  intros J b Hb. unfold readNumeric. destruct (if_null_spec b Hb) as [H1 H2].
  destruct (readIfNull b) as [isnull b1]. cbn [snd] in *. destruct isnull; [eauto 8|].
  destruct (numeric_ret J (str_fuel b1) [] false true false false b1 H1) as (a & b2 & -> & H4 & H5).
  { unfold str_fuel, rem, content. lia. }
  eexists _, b2. split; [reflexivity|]. split; [auto|lia].
Qed.
Lemma post_at : forall A (a : A) b b' l, B b' -> top_stack l -> (rem b' <= rem b)%nat ->
  exists a1 e1 s1, post a (b', l) = Ok (a1, e1, s1) /\ SI s1 /\ (srem s1 <= srem (b, l))%nat.
Proof.
  intros A a b b' l Hb Hl R. destruct (post_ret A a (b', l)) as (a1 & e1 & s1 & -> & S1 & R1); [split; auto|].
  eexists _, _, s1. split; [reflexivity|]. split; [auto|]. unfold srem in *. cbn [fst] in *. lia.
Qed.
Lemma done_at : forall A (a : A) (e : option err) b b' l l', B b' -> top_stack l' -> (rem b' <= rem b)%nat ->
  exists a1 e1 s1, Ok (a, e, (b', l')) = Ok (a1, e1, s1) /\ SI s1 /\ (srem s1 <= srem (b, l))%nat.
Proof. intros. eexists _, _, _. split; [reflexivity|]. split; [split; auto|]. auto. Qed.

Lemma num_ret : forall J pick, ret (ParseNum J pick).
Proof.
  intros J pick. apply pre_ret. intros [b l] [Hb Hl]. cbn [fst snd] in *.
  destruct (b_peek 4 b) as [[p ok] b1] eqn:E. destruct (peek_spec _ _ _ _ _ Hb E) as (H1 & H2 & _).
  destruct (beq p _).
  - apply post_at; auto; [apply read_B; auto|]. pose proof (read_rem 4 b1 H1). lia.
  - destruct (readNumeric_ret J b1 H1) as ([v e] & b2 & -> & H4 & H5). cbn [obind].
    destruct e; [apply done_at|apply post_at]; auto; lia.
Qed.
Lemma rconv_ret : forall f m, ret m -> ret (rconv f m).
Proof. intros f m H s Hs. unfold rconv. destruct (H s Hs) as (a & e & s1 & -> & S1 & R1). cbn [obind]. eauto 8. Qed.
Lemma quoted_ret : forall body, bret body -> ret (read_quoted body).
Proof.
  intros body Hbody. apply pre_ret. intros [b l] [Hb Hl]. cbn [fst snd] in *.
  destruct (b_peek 4 b) as [[p ok] b1] eqn:E. destruct (peek_spec _ _ _ _ _ Hb E) as (H1 & H2 & _).
  assert (G1 : exists a1 e1 s1, (' (v, e, b2) <- body (snd (b_byte b1)) ;;
      match e with Some _ => Ok (v, e, (b2, l)) | None => post v (b2, l) end) = Ok (a1, e1, s1) /\
      SI s1 /\ (srem s1 <= srem (b, l))%nat).
  { assert (X : B (snd (b_byte b1)) /\ (rem (snd (b_byte b1)) <= rem b1)%nat).
    { destruct (byte_spec b1 H1) as [(c & b2 & -> & X1 & X2 & _)|(e & b2 & -> & X1 & X2)]; cbn [snd]; split; auto; lia. }
    destruct X as [X1 X2]. destruct (Hbody _ X1) as ([v e] & b2 & -> & H4 & H5). cbn [obind].
    destruct e; [apply done_at|apply post_at]; auto; lia. }
  assert (G2 : exists (a1 : bytes) (e1 : option err) s1, (if beq p (lit "null") then
        match b_read 4 b1 with
        | (_, Some e, b2) => Ok ([], protocol_exc_from_os (Some e), (b2, l))
        | (_, None, b2) => post [] (b2, l)
        end
      else bad_data [] (b1, l)) = Ok (a1, e1, s1) /\ SI s1 /\ (srem s1 <= srem (b, l))%nat).
  { destruct (beq p _).
    - pose proof (read_B 4 b1 H1) as R1. pose proof (read_rem 4 b1 H1) as R2.
      destruct (b_read 4 b1) as [[d e] b2]. cbn [snd] in *.
      destruct e; [apply done_at|apply post_at]; auto; lia.
    - apply done_at; auto; lia. }
  clear E. destruct p as [|x p]; [exact G2|].
  repeat first [exact G1|exact G2|match goal with |- context [match ?x with _ => _ end] => is_var x; destruct x end].
Qed.
Lemma bool_ret : Cl -> ret ReadBool.
Proof.
  intros C. apply pre_ret. intros [b l] [Hb Hl]. cbn [fst snd] in *.
  destruct (b_peek 5 b) as [[p ok] b1] eqn:E. destruct (peek_spec _ _ _ _ _ Hb E) as (H1 & H2 & _ & H4).
  assert (L : (5 <= length (b_un b1 ++ b_after b1))%nat).
  { rewrite app_length. destruct (Nat.lt_ge_cases (length (b_un b1)) 5) as [X|X]; [|lia].
    pose proof (proj1 (proj1 H1)) as A. rewrite array_len, (H4 C X), buf_size_4096 in A. cbn [length] in A. lia. }
  cbv zeta.
  assert (W : forall w v, (length w <= 5)%nat -> exists a1 e1 s1,
    (if (length (b_un b1 ++ b_after b1) <? length w)%nat then Panic
      else if beq (firstn (length w) (b_un b1 ++ b_after b1)) w
           then post v (snd (b_read (length w) b1), l)
           else bad_data false (b1, l)) = Ok (a1, e1, s1) /\ SI s1 /\ (srem s1 <= srem (b, l))%nat).
  { intros w v Hw. replace (length (b_un b1 ++ b_after b1) <? length w)%nat with false by lia.
    destruct (beq _ w); [|apply done_at; auto; lia].
    apply post_at; auto; [apply read_B; auto|]. pose proof (read_rem (length w) b1 H1). lia. }
  destruct p as [|c p]; [apply post_at; auto; lia|].
  destruct (c =? 116); [apply W; cbn; lia|]. destruct (c =? 102); [apply W; cbn; lia|].
  destruct (c =? 110); [apply W; cbn; lia|]. apply done_at; auto; lia.
Qed.
Lemma byte_snd : forall b, B b -> B (snd (b_byte b)) /\ (rem (snd (b_byte b)) <= rem b)%nat.
Proof.
  intros b H1. destruct (byte_spec b H1) as [(c & b2 & -> & X1 & X2 & _)|(e & b2 & -> & X1 & X2)]; cbn [snd]; split; auto; lia.
Qed.
Lemma object_start_ret : ret ParseObjectStart.
Proof.
  apply pre_ret. intros [b l] [Hb Hl]. cbn [fst snd] in *.
  destruct (b_peek 4 b) as [[p ok] b1] eqn:E. destruct (peek_spec _ _ _ _ _ Hb E) as (H1 & H2 & _).
  destruct (byte_snd b1 H1) as [X1 X2].
  assert (G1 : exists a1 (e1 : option err) s1, Ok (false, None, (snd (b_byte b1), ObjFirst :: l)) = Ok (a1, e1, s1) /\
      SI s1 /\ (srem s1 <= srem (b, l))%nat) by (apply done_at; auto; [apply top_cons; auto|lia]).
  assert (G2 : exists a1 e1 s1, (if beq p (lit "null") then Ok (true, None, (b1, l)) else bad_data false (b1, l)) =
      Ok (a1, e1, s1) /\ SI s1 /\ (srem s1 <= srem (b, l))%nat) by (destruct (beq p _); apply done_at; auto; lia).
  clear E. destruct p as [|x p]; [exact G2|].
  repeat first [exact G1|exact G2|match goal with |- context [match ?x with _ => _ end] => is_var x; destruct x end].
Qed.
Lemma list_begin_ret : ret ParseListBegin.
Proof.
  apply pre_ret. intros [b l] [Hb Hl]. cbn [fst snd] in *.
  destruct (b_peek 4 b) as [[p ok] b1] eqn:E. destruct (peek_spec _ _ _ _ _ Hb E) as (H1 & H2 & _).
  destruct (byte_snd b1 H1) as [X1 X2].
  assert (G1 : exists a1 e1 s1, (if ok then Ok (false, None, (snd (b_byte b1), ListFirst :: l)) else bad_data false (b1, l)) = Ok (a1, e1, s1) /\
      SI s1 /\ (srem s1 <= srem (b, l))%nat).
  { destruct ok; apply done_at; auto; try lia. apply top_cons; auto. }
  assert (G2 : exists a1 e1 s1, (if ok && beq p (lit "null") then Ok (true, None, (b1, l)) else bad_data false (b1, l)) =
      Ok (a1, e1, s1) /\ SI s1 /\ (srem s1 <= srem (b, l))%nat) by (destruct (ok && beq p _); apply done_at; auto; lia).
  clear E. destruct p as [|x p]; [exact G2|].
  repeat first [exact G1|exact G2|match goal with |- context [match ?x with _ => _ end] => is_var x; destruct x end].
Qed.
Lemma end_ret : forall inside close, inside TopLevel = false -> wret (parse_end inside close).
Proof.
  intros inside close Hi [b l] [Hb Hl]. cbn [fst snd] in *. unfold parse_end.
  destruct (if_null_spec b Hb) as [H1 H2]. destruct (readIfNull b) as [isnull b1]. cbn [snd] in *.
  assert (K : forall (e : option err) b' l', B b' -> top_stack l' -> (rem b' <= rem b)%nat ->
    exists e1 s1, Ok (e, (b', l')) = Ok (e1, s1) /\ SI s1 /\ (srem s1 <= srem (b, l))%nat).
  { intros. eexists _, _. split; [reflexivity|]. split; [split; auto|auto]. }
  destruct isnull; [apply K; auto|].
  destruct l as [|c l]; [destruct (top_nil Hl)|]. destruct (inside c) eqn:Ec; [|apply K; auto].
  destruct (b_until close b1) as [[line e] b2] eqn:E. destruct (until_spec _ _ _ _ _ H1 E) as (H3 & H4 & _).
  destruct e; [apply K; auto; lia|]. destruct (forallb _ line); [|apply K; auto; lia].
  assert (Ht : top_stack l) by (eapply top_tail; eauto; congruence).
  destruct (post_value_ret (b2, l)) as (e & s1 & -> & S1 & R1); [split; auto|].
  eexists _, s1. split; [reflexivity|]. split; [auto|]. unfold srem in *. cbn [fst] in *. lia.
Qed.

(** Sequencing of calls *)
Lemma done_ret : forall A (a : A) (e : option err) s0 s, SI s -> (srem s <= srem s0)%nat ->
  exists a1 e1 s1, Ok (a, e, s) = Ok (a1, e1, s1) /\ SI s1 /\ (srem s1 <= srem s0)%nat.
Proof. intros. eauto 8. Qed.
Ltac call_step L :=
  match goal with
  | Hs : SI ?s |- context [obind (?m ?s) _] =>
    let a := fresh "a" in let e := fresh "e" in let s1 := fresh "s" in let S1 := fresh "S" in let R1 := fresh "R" in
    destruct (L s Hs) as (a & e & s1 & -> & S1 & R1); cbn [obind]; try destruct a as [|]; destruct e;
    try (apply done_ret; [assumption|lia])
  end.

Lemma byte_ret : forall J, ret (ReadByte J).
Proof. intros. apply rconv_ret, num_ret. Qed.
Lemma i16_ret : forall J, ret (ReadI16 J).
Proof. intros. apply rconv_ret, num_ret. Qed.
Lemma i32_ret : forall J, ret (ReadI32 J).
Proof. intros. apply rconv_ret, num_ret. Qed.
Lemma i64_ret : forall J, ret (ReadI64 J).
Proof. intros. apply num_ret. Qed.
Lemma string_ret : ret ReadString.
Proof. apply quoted_ret, string_body_ret. Qed.
Lemma binary_ret : ret ReadBinary.
Proof. apply quoted_ret, base64_body_ret. Qed.

Lemma elem_list_ret : forall J, ret (ParseElemListBegin J).
Proof.
  intros J s Hs. unfold ParseElemListBegin.
  destruct (list_begin_ret s Hs) as ([] & e & s1 & -> & S1 & R1); cbn [obind]; [eauto 8|].
  destruct e; [eauto 8|].
  destruct (byte_ret J s1 S1) as (t & e & s2 & -> & S2 & R2); cbn [obind].
  destruct e; [apply done_ret; [auto|lia]|].
  destruct (i64_ret J s2 S2) as (n & e & s3 & -> & S3 & R3); cbn [obind]. apply done_ret; [auto|lia].
Qed.
Lemma envelope_ret : forall J, ret (read_envelope J).
Proof.
  intros J s Hs. unfold read_envelope.
  destruct (string_ret s Hs) as (name & e & s1 & -> & S1 & R1); cbn [obind].
  destruct e; [apply done_ret; [auto|lia]|].
  destruct (byte_ret J s1 S1) as (t & e & s2 & -> & S2 & R2); cbn [obind].
  destruct e; [apply done_ret; [auto|lia]|].
  destruct (i32_ret J s2 S2) as (n & e & s3 & -> & S3 & R3); cbn [obind]. apply done_ret; [auto|lia].
Qed.
Lemma at_ret : forall A (m : rop jr A) s0 s, ret m -> SI s -> (srem s <= srem s0)%nat ->
  exists a1 e1 s1, m s = Ok (a1, e1, s1) /\ SI s1 /\ (srem s1 <= srem s0)%nat.
Proof. intros A m s0 s Hm Hs R. destruct (Hm s Hs) as (a & e & s1 & -> & S1 & R1). apply done_ret; [auto|lia]. Qed.
Lemma s_message_ret : forall J, ret (sReadMessageBegin J).
Proof.
  intros J s Hs. unfold sReadMessageBegin.
  destruct (list_begin_ret s Hs) as ([] & e & s1 & -> & S1 & R1); cbn [obind]; [eauto 8|].
  destruct e; [eauto 8|]. apply at_ret; auto. apply envelope_ret.
Qed.
Lemma j_message_ret : forall J, ret (jReadMessageBegin J).
Proof.
  intros J s Hs. unfold jReadMessageBegin.
  destruct (list_begin_ret s Hs) as ([] & e & s1 & -> & S1 & R1); cbn [obind]; [eauto 8|].
  destruct e; [eauto 8|].
  destruct (i32_ret J s1 S1) as (v & e & s2 & -> & S2 & R2); cbn [obind].
  destruct e; [apply done_ret; [auto|lia]|]. destruct (v =? 1); [|apply done_ret; [auto|lia]].
  apply at_ret; [apply envelope_ret|auto|lia].
Qed.
Lemma struct_begin_ret : ret ReadStructBegin.
Proof.
  intros s Hs. unfold ReadStructBegin. destruct (object_start_ret s Hs) as (v & e & s1 & -> & S1 & R1); cbn [obind].
  apply done_ret; [auto|lia].
Qed.
Lemma s_field_ret : ret sReadFieldBegin.
Proof.
  apply pre_ret. intros [b l] [Hb Hl]. cbn [fst snd] in *.
  pose proof (advance_B 1 b Hb) as H1. pose proof (advance_rem 1 b) as R1.
  destruct (string_body_ret (b_advance 1 b) H1) as ([name e] & b2 & E & H2 & R2).
  destruct (b_un b) as [|x u]; [apply done_at; auto|].
  assert (G : exists a1 e1 s1, (' (name, e, b2) <- ParseStringBody (b_advance 1 b) ;;
      match e with
      | Some _ => Ok ((name, STOP, 0), e, (b2, l))
      | None => post (name, GENERIC, -1) (b2, l)
      end) = Ok (a1, e1, s1) /\ SI s1 /\ (srem s1 <= srem (b, l))%nat).
  { rewrite E. cbn [obind]. destruct e; [apply done_at|apply post_at]; auto; lia. }
  repeat first [exact G|apply done_at; auto; lia|match goal with |- context [match ?x with _ => _ end] => is_var x; destruct x end].
Qed.
Lemma j_field_ret : forall J, ret (jReadFieldBegin J).
Proof.
  intros J s Hs. unfold jReadFieldBegin. destruct (b_un (fst s)) as [|x u]; [apply done_ret; auto|].
  destruct ((x =? 125) || (x =? 93)); [apply done_ret; auto|].
  destruct (i16_ret J s Hs) as (id & e & s1 & -> & S1 & R1); cbn [obind].
  destruct e; [apply done_ret; [auto|lia]|].
  destruct (object_start_ret s1 S1) as (v & e & s2 & -> & S2 & R2); cbn [obind].
  destruct e; [apply done_ret; [auto|lia]|].
  destruct (string_ret s2 S2) as (ty & e & s3 & -> & S3 & R3); cbn [obind]. apply done_ret; [auto|lia].
Qed.
Lemma s_map_ret : forall J, ret (sReadMapBegin J).
Proof.
  intros J s Hs. unfold sReadMapBegin.
  destruct (list_begin_ret s Hs) as ([] & e & s1 & -> & S1 & R1); cbn [obind]; [eauto 8|].
  destruct e; [eauto 8|].
  destruct (byte_ret J s1 S1) as (kt & e & s2 & -> & S2 & R2); cbn [obind].
  destruct e; [apply done_ret; [auto|lia]|].
  destruct (byte_ret J s2 S2) as (vt & e & s3 & -> & S3 & R3); cbn [obind].
  destruct e; [apply done_ret; [auto|lia]|].
  destruct (i64_ret J s3 S3) as (n & e & s4 & -> & S4 & R4); cbn [obind]. apply done_ret; [auto|lia].
Qed.
Lemma j_map_ret : forall J, ret (jReadMapBegin J).
Proof.
  intros J s Hs. unfold jReadMapBegin.
  destruct (list_begin_ret s Hs) as ([] & e & s1 & -> & S1 & R1); cbn [obind]; [eauto 8|].
  destruct e; [eauto 8|].
  destruct (string_ret s1 S1) as (kt & e & s2 & -> & S2 & R2); cbn [obind].
  destruct e; [apply done_ret; [auto|lia]|].
  destruct (string_ret s2 S2) as (vt & e & s3 & -> & S3 & R3); cbn [obind].
  destruct e; [apply done_ret; [auto|lia]|].
  destruct (i64_ret J s3 S3) as (n & e & s4 & -> & S4 & R4); cbn [obind]. apply done_ret; [auto|lia].
Qed.
Lemma unit_ret : forall m, wret m -> ret (unit_op m).
Proof. intros m H s Hs. unfold unit_op. destruct (H s Hs) as (e & s1 & -> & S1 & R1). cbn [obind]. eauto 8. Qed.
Lemma nop_ret : wret nop.
Proof. intros s Hs. eexists _, _. split; [reflexivity|]. auto. Qed.

Definition is_bool_call {A} (c : rcall A) : Prop := match c with CBool => True | _ => False end.
Definition is_skip {A} (c : rcall A) : Prop := match c with CSkip _ _ _ _ => True | _ => False end.
Theorem json_calls_ret : forall J A (c : rcall A), ~ is_skip c -> (is_bool_call c -> Cl) ->
  ret (call (jsonR J) c) /\ ret (call (simpleR J) c).
Proof.
  intros J A c Hk Hc.
  destruct c; cbn [call jsonR simpleR rMessageBegin rMessageEnd rStructBegin rStructEnd rFieldBegin rFieldEnd
    rMapBegin rMapEnd rListBegin rListEnd rSetBegin rSetEnd rBool rByte rI16 rI32 rI64 rDouble rString rBinary];
  try (destruct Hk; exact I); split;
  first [ apply j_message_ret | apply s_message_ret | apply struct_begin_ret | apply j_field_ret | apply s_field_ret
        | apply j_map_ret | apply s_map_ret | apply elem_list_ret | apply bool_ret, Hc; exact I | apply byte_ret
        | apply i16_ret | apply i32_ret | apply i64_ret | apply num_ret | apply string_ret | apply binary_ret
        | apply unit_ret; first [ apply nop_ret | apply end_ret; reflexivity ] ].
Qed.
End Total.
