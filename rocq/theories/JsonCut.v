(** TJSONProtocol reading text that ends too early. *)
From Coq Require Import ZArith List Bool Lia String Ascii.
From Coq Require Import ZifyBool ZifyNat.
From Verif Require Import Base Arith Errors Transport TransportProofs Proto Values Access Strconv JsonText JsonTextProofs
  F64 GoVal Names BufIO BufRead BufReadProofs Json JsonSpec JsonWrite JsonRead JsonReadVal JsonTotal.
Import ListNotations.
Local Open Scope list_scope.
Local Notation length := List.length.
Open Scope Z_scope.

Lemma cut_app : forall (T1 T2 p q : bytes), T1 ++ T2 = p ++ q ->
  (exists p2, p = T1 ++ p2 /\ T2 = p2 ++ q) \/ (exists q1, T1 = p ++ q1 /\ q1 <> [] /\ q = q1 ++ T2).
Proof.
  induction T1 as [|x T1 IH]; intros T2 p q E.
  - left. exists p. split; [reflexivity|exact E].
  - destruct p as [|y p].
    + right. exists (x :: T1). split; [reflexivity|]. split; [discriminate|symmetry; exact E].
    + cbn [app] in E. injection E as <- E. destruct (IH T2 p q E) as [(p2 & -> & H)|(q1 & -> & H1 & H2)].
      * left. exists p2. auto.
      * right. exists q1. auto.
Qed.
Lemma nows_prefix : forall (T p q : bytes), nows T -> T = p ++ q -> nows (p ++ []).
Proof. intros T [|c p] q N ->; [exact I|exact N]. Qed.
Lemma delim_prefix : forall (T p q : bytes), delim T -> T = p ++ q -> delim (p ++ []).
Proof. intros T [|c p] q N ->; [exact I|exact N]. Qed.

Local Notation SIT := (SI True).

(** The call failed. *)
Definition fails {A} (o : outcome (A * option err * jr)) : Prop := exists a e s', o = Ok (a, Some e, s').
Definition hfails {A} (o : outcome ((A + err) * jr)) : Prop := exists e s', o = Ok (inr e, s').

(** ReadBytes without the byte it looks for. *)
Lemma until_none : forall fuel d acc b, ~ In d (b_un b ++ content (b_rt b)) ->
  exists acc' e b', b_until_loop fuel d acc b = (acc', Some e, b').
Proof.
  induction fuel as [|f IH]; intros d acc b N; [eexists _, _, _; reflexivity|]. cbn [b_until_loop].
  rewrite upto_none by (intros H; apply N; apply in_or_app; now left).
  destruct (b_err b); [eexists _, _, _; reflexivity|].
  destruct (buf_size <=? length (b_un b))%nat; apply IH.
  - cbn [b_advance b_un b_rt]. rewrite skipn_all. intros H. apply N, in_or_app. now right.
  - unfold b_fill. destruct (tread (buf_size - length (b_un b)) (b_rt b)) as [[d0 e] r'] eqn:E.
    apply tread_spec in E. destruct E as (E & _). cbn [b_un b_rt]. rewrite <- app_assoc, <- E. exact N.
Qed.
Lemma until_cut : forall k b prev d p, view k b prev p [] -> ~ In d p ->
  exists l e b', b_until d b = (l, Some e, b').
Proof.
  intros k b prev d p V N. apply until_none. rewrite (v_con _ _ _ _ _ V), app_nil_r. exact N.
Qed.

Section Cut.
Variable J : jenv.
Variable k : mode.
Hypothesis Kl : k <> Loose.

(** The input is used up. *)
Definition spent (s : jr) (l : list ctx) : Prop := snd s = l /\ (exists prev, view k (fst s) prev [] []) /\ SIT s.
(** The call failed or used up the input. *)
Definition ends3 {A} (o : outcome (A * option err * jr)) (l : list ctx) : Prop :=
  fails o \/ exists a s', o = Ok (a, None, s') /\ spent s' l.
Definition hends {A} (o : outcome ((A + err) * jr)) (l : list ctx) : Prop :=
  hfails o \/ exists a s', o = Ok (inl a, s') /\ spent s' l.

(** ** White space, numbers *)
Lemma pre_cut : forall b prev c l T p q, view k b prev p [] -> SIT (b, c :: l) ->
  sep c ++ T = p ++ q -> q <> [] -> T <> [] -> nows T ->
  exists b' prev' p' q', ParsePreValue (b, c :: l) = Ok (None, (b', c :: l)) /\ view k b' prev' p' [] /\
    T = p' ++ q' /\ q' <> [] /\ SIT (b', c :: l) /\
    (p = [] -> p' = []) /\ (p' <> [] -> q' = q).
Proof.
  intros b prev c l T p q V S E Q NT N.
  assert (K : forall b', ParsePreValue (b, c :: l) = Ok (None, (b', c :: l)) -> SIT (b', c :: l)).
  { intros b' E'. destruct (pre_value_ret True _ S) as (e & s' & E2 & S2 & _). rewrite E' in E2. now injection E2 as <- <-. }
  destruct (cut_app _ _ _ _ E) as [(p2 & -> & E2)|(q1 & E1 & Q1 & _)].
  - destruct (pre_view k b prev c l p2 [] V) as (b' & prev' & E' & V' & _); [eapply nows_prefix; eassumption|now left|].
    exists b', prev', p2, q. split; [exact E'|]. split; [assumption|]. split; [assumption|]. split; [assumption|].
    split; [now apply K|]. split; [intros H; now apply app_eq_nil in H|]. reflexivity.
  - assert (P : p = []).
    { destruct p as [|x p]; [reflexivity|]. destruct c; cbn [sep] in E1; cbn [app] in E1; try discriminate E1;
        injection E1 as _ E1; symmetry in E1; apply app_eq_nil in E1; tauto. }
    subst p. destruct (skip_same _ _ _ _ _ V I) as [V1 U1].
    assert (U : b_un (skip_ws b) = []).
    { rewrite U1. pose proof (v_con _ _ _ _ _ V) as C. now apply app_eq_nil in C. }
    assert (E' : ParsePreValue (b, c :: l) = Ok (None, (skip_ws b, c :: l))).
    { unfold ParsePreValue. cbv zeta. now rewrite U. }
    exists (skip_ws b), prev, [], T. split; [exact E'|]. split; [assumption|]. split; [reflexivity|]. split; [assumption|].
    split; [now apply K|]. split; [reflexivity|congruence].
Qed.
Lemma pre_spent : forall b prev c l, view k b prev [] [] -> SIT (b, c :: l) ->
  exists b', ParsePreValue (b, c :: l) = Ok (None, (b', c :: l)) /\ view k b' prev [] [] /\ SIT (b', c :: l).
Proof.
  intros b prev c l V S. destruct (skip_same _ _ _ _ _ V I) as [V1 U1].
  assert (U : b_un (skip_ws b) = []).
  { rewrite U1. pose proof (v_con _ _ _ _ _ V) as C. now apply app_eq_nil in C. }
  assert (E' : ParsePreValue (b, c :: l) = Ok (None, (skip_ws b, c :: l))).
  { unfold ParsePreValue. cbv zeta. now rewrite U. }
  exists (skip_ws b). split; [exact E'|]. split; [assumption|].
  destruct (pre_value_ret True _ S) as (e & s' & E2 & S2 & _). rewrite E' in E2. now injection E2 as <- <-.
Qed.

(** No character ends a number; behind the N of NaN and the I of Infinity there is no more than the
    rest of the word and [extra] characters. *)
Fixpoint wordy (extra : nat) (p : bytes) : bool :=
  match p with
  | [] => true
  | c :: w => negb (is_term c) && (negb (c =? 78) || (length w <=? 2 + extra)%nat) &&
              (negb (c =? 73) || (length w <=? 7 + extra)%nat) && wordy extra w
  end.
Lemma wordy_cut : forall p q, wordy 1 (p ++ q) = true -> q <> [] -> wordy 0 p = true.
Proof.
  induction p as [|c p IH]; intros q W Q; [reflexivity|]. cbn [app wordy] in *.
  rewrite !andb_true_iff in *. destruct W as [[[W1 W2] W3] W4]. rewrite app_length in *.
  assert (1 <= length q)%nat by (destruct q; [congruence|cbn; lia]).
  split; [split; [split|]|now apply (IH q)]; [assumption|lia..].
Qed.
Lemma wordy_num : forall t, (exists x pt sg ex, num_run t pt sg ex = Some x) -> wordy 1 t = true /\ wordy 1 (t ++ [34]) = true.
Proof.
  induction t as [|c t IH]; intros (x & pt & sg & ex & R); [split; reflexivity|]. cbn [num_run] in R.
  assert (G : (is_digit c || (c =? 46) || ((c =? 101) || (c =? 69)) || ((c =? 45) || (c =? 43))) = true /\
              exists x pt sg ex, num_run t pt sg ex = Some x).
  { destruct (is_digit c); [split; [reflexivity|eauto]|]. cbn [orb].
    destruct (c =? 46); [destruct (pt || ex); [discriminate|]; split; [reflexivity|eauto]|]. cbn [orb].
    destruct ((c =? 101) || (c =? 69)); [destruct ex; [discriminate|]; split; [reflexivity|eauto]|]. cbn [orb].
    destruct ((c =? 45) || (c =? 43)); [destruct sg; [|discriminate]; split; [reflexivity|eauto]|discriminate]. }
  destruct G as [G1 G2]. destruct (IH G2) as [W1 W2]. cbn [app wordy]. rewrite W1, W2, !andb_true_r.
  assert (X : negb (is_term c) = true /\ (c =? 78) = false /\ (c =? 73) = false).
  { unfold is_digit, is_term, is_ws in *. lia. }
  destruct X as (-> & -> & ->). split; reflexivity.
Qed.

Lemma read_literal_cut : forall got word v q b prev p v' b', view k b prev p [] ->
  (length p + length got <= length word)%nat -> ~ In 0 word ->
  read_literal got word v q b = ((v', None), b') -> exists prev', view k b' prev' [] [].
Proof.
  intros got word v q b prev p v' b' V L Z0 E. unfold read_literal in E.
  set (n := (length word - length got)%nat) in *.
  assert (G : forall b2, view k b2 prev p [] -> b_un b2 <> [] ->
    (if beq (got ++ pad n (firstn n (b_un b2))) word then ((v, None), if q then readQuoteIfNext (b_advance n b2) else b_advance n b2)
     else ((NUMERIC_NULL, Some (EProtocol INVALID_DATA)), b_advance n b2)) = ((v', None), b') -> exists prev', view k b' prev' [] []).
  { intros b2 V2 U E2. destruct (beq _ _) eqn:Eb; [|discriminate]. apply beq_eq in Eb.
    assert (Ln : (n <= length (b_un b2))%nat).
    { destruct (Nat.le_gt_cases n (length (b_un b2))) as [H|H]; [assumption|]. exfalso. apply Z0. rewrite <- Eb.
      apply in_or_app. right. unfold pad. apply in_or_app. right.
      rewrite firstn_length. replace (n - Nat.min n (length (b_un b2)))%nat with (S (n - length (b_un b2) - 1)) by lia. now left. }
    pose proof (v_con _ _ _ _ _ V2) as C. rewrite app_nil_r in C.
    assert (Lp : length p = n).
    { apply (f_equal (@length Z)) in C. rewrite app_length in C. unfold n in *. lia. }
    rewrite <- (app_nil_r p) in V2. apply advance_view in V2; [|lia]. rewrite Lp in V2.
    assert (Un : b_un (b_advance n b2) = []).
    { pose proof (v_con _ _ _ _ _ V2) as C2. now apply app_eq_nil in C2. }
    exists (last p prev). injection E2 as _ <-. destruct q; [|exact V2]. unfold readQuoteIfNext. now rewrite Un. }
  unfold b_read in E. destruct (b_un b) as [|x u] eqn:U.
  - rewrite (v_err _ _ _ _ _ V) in E.
    destruct (b_rt b) as [|ev r] eqn:Rt.
    + destruct (fill_eof b Rt) as (U1 & E1 & _). rewrite U1, U, E1 in E. discriminate.
    + destruct (fill_view k b prev p [] V) as [V1 (d & Dn & U1 & _)];
        [congruence|rewrite U; cbn; lia|eapply fits_small; [eassumption|rewrite U; cbn; lia]|].
      destruct (b_un (b_fill b)) as [|y w] eqn:U2; [rewrite U in U1; cbn in U1; congruence|].
      apply (G _ V1); [congruence|]. rewrite U2. exact E.
  - apply (G b V); [congruence|]. rewrite U. exact E.
Qed.

Lemma numeric_cut : forall fuel buf pt sg ex q b prev p v b', view k b prev p [] -> wordy 0 p = true ->
  numeric_loop J fuel buf pt sg ex q b = Ok ((v, None), b') -> exists prev', view k b' prev' [] [].
Proof.
  induction fuel as [|f IH]; intros buf pt sg ex q b prev p v b' V W E; [discriminate|].
  cbn [numeric_loop] in E. destruct p as [|c p].
  - destruct (byte_eof _ _ _ V) as (b1 & B1 & V1). rewrite B1 in E. destruct buf; [discriminate|].
    injection E as _ <-. eauto.
  - destruct (byte_view _ _ _ _ _ _ V) as (b1 & B1 & V1). rewrite B1 in E. clear B1.
    cbn [wordy] in W. rewrite !andb_true_iff in W. destruct W as [[[W1 W2] W3] W4].
    destruct (is_digit c); [eapply IH; eassumption|].
    destruct (c =? 46); [destruct pt; [discriminate|]; destruct ex; [discriminate|]; eapply IH; eassumption|].
    destruct ((c =? 101) || (c =? 69)); [destruct ex; [discriminate|]; eapply IH; eassumption|].
    destruct ((c =? 45) || (c =? 43)); [destruct sg; [|discriminate]; eapply IH; eassumption|].
    destruct (is_term c); [discriminate|].
    destruct (c =? 78).
    { destruct buf; [|discriminate].
      destruct (read_literal [c] (lit "NaN") (0, GO_NAN) q b1) as [[v1 e1] b2] eqn:R. assert (X : ((v1, e1), b2) = ((v, None), b')) by congruence. injection X as -> -> ->.
      eapply read_literal_cut; [exact V1| | |exact R]; [cbn in W2 |- *; lia|cbn; lia]. }
    destruct (c =? 73).
    { destruct (beq buf [] || beq buf [43]).
      - destruct (read_literal [c] (lit "Infinity") (0, INF) q b1) as [[v1 e1] b2] eqn:R. assert (X : ((v1, e1), b2) = ((v, None), b')) by congruence. injection X as -> -> ->.
        eapply read_literal_cut; [exact V1| | |exact R]; [cbn in W3 |- *; lia|cbn; lia].
      - destruct (beq buf [45]); [|discriminate].
        destruct (read_literal [45; c] (lit "-Infinity") (0, NEG_INF) q b1) as [[v1 e1] b2] eqn:R. assert (X : ((v1, e1), b2) = ((v, None), b')) by congruence. injection X as -> -> ->.
        eapply read_literal_cut; [exact V1| | |exact R]; [cbn in W3 |- *; lia|cbn; lia]. }
    destruct (c =? 34); [eapply IH; eassumption|discriminate].
Qed.
Lemma readNumeric_cut : forall b prev p v b', view k b prev p [] -> wordy 0 p = true -> nows (p ++ []) -> hd 0 (p ++ []) <> 110 ->
  readNumeric J b = Ok ((v, None), b') -> p <> [] /\ exists prev', view k b' prev' [] [].
Proof.
  intros b prev p v b' V W N H E. unfold readNumeric in E.
  destruct (not_null _ _ _ _ _ V N H) as (b1 & E1 & V1). rewrite E1 in E. split; [|eapply numeric_cut; eassumption].
  intros ->. unfold str_fuel in E. cbn [numeric_loop] in E.
  destruct (byte_eof _ _ _ V1) as (b2 & B2 & _). rewrite B2 in E. discriminate.
Qed.

Lemma at_spent : forall b prev l, view k b prev [] [] -> SIT (b, l) -> spent (b, l) l.
Proof. intros b prev l V S. split; [reflexivity|]. split; [exists prev; exact V|exact S]. Qed.
Lemma post_spent : forall A (a : A) b prev c l, view k b prev [] [] -> SIT (b, c :: l) ->
  exists s', post a (b, c :: l) = Ok (a, None, s') /\ spent s' (after_value c :: l).
Proof.
  intros A a b prev c l V S. destruct (post_view A a k b prev c l [] [] V I) as (b' & E & V').
  eexists. split; [exact E|]. apply at_spent with prev; [assumption|].
  destruct (post_ret True A a _ S) as (a' & e & s' & E' & S' & _). rewrite E in E'. now injection E' as <- <- <-.
Qed.
Lemma SI_cons : forall b b' l, SIT (b, l) -> B True b' -> SIT (b', l).
Proof. intros b b' l [_ H] Hb. split; [exact Hb|exact H]. Qed.
Lemma peek_SI : forall n b l p ok b1, SIT (b, l) -> b_peek n b = (p, ok, b1) -> SIT (b1, l).
Proof.
  intros n b l p ok b1 S E. destruct (peek_spec True n b p ok b1 (proj1 S) E) as [H _].
  eapply SI_cons; [exact S|exact H].
Qed.

Lemma ParseNum_cut : forall pick c l T b prev p q, view k b prev p [] -> SIT (b, c :: l) ->
  sep c ++ T = p ++ q -> q <> [] -> T <> [] -> nows T -> hd 0 T <> 110 -> wordy 1 T = true ->
  ends3 (ParseNum J pick (b, c :: l)) (after_value c :: l) /\
  (p = [] \/ (length T <= 1)%nat -> fails (ParseNum J pick (b, c :: l))).
Proof.
  intros pick c l T b prev p q V S E Q NT N H W.
  destruct (pre_cut b prev c l T p q V S E Q NT N) as (b1 & pr1 & p1 & q1 & E1 & V1 & ET & Q1 & S1 & P0 & _).
  unfold ParseNum, pre. rewrite E1. cbn [obind].
  destruct (peek_view 4 _ _ _ _ _ V1) as (b2 & E2 & V2 & _); [lia|]. rewrite E2.
  pose proof (peek_SI _ _ _ _ _ _ S1 E2) as S2.
  assert (Hp : hd 0 (p1 ++ []) <> 110).
  { destruct p1 as [|x p1]; [cbn; lia|]. rewrite ET in H. exact H. }
  assert (Np : nows (p1 ++ [])) by (eapply nows_prefix; eassumption).
  rewrite firstn_hd by (assumption || (try lia; discriminate)).
  destruct (readNumeric_ret True J b2 (proj1 S2)) as ([v e] & b3 & E3 & B3 & _). rewrite E3. cbn [obind].
  pose proof (SI_cons _ _ _ S2 B3) as S3.
  destruct e as [e|]; [split; [left|intros _]; eexists _, _, _; reflexivity|].
  rewrite ET in W. destruct (readNumeric_cut _ _ _ _ _ V2 (wordy_cut _ _ W Q1) Np Hp E3) as [Pn [pr3 V3]].
  
  split; [|intros [P|P]; [now apply P0 in P|]].
  2:{ exfalso. rewrite ET, app_length in P. destruct p1; [congruence|]. destruct q1; [congruence|]. cbn in P. lia. }
  right.
  destruct (post_spent Z (pick v) b3 pr3 c l V3 S3) as (s' & E4 & Sp). exists (pick v), s'. auto.
Qed.
Lemma rconv_ends : forall f m s l, ends3 (m s) l -> ends3 (rconv f m s) l.
Proof.
  intros f m s l [(a & e & s' & E)|(a & s' & E & Sp)]; unfold rconv; rewrite E; cbn [obind].
  - left. eexists _, _, _. reflexivity.
  - right. eexists _, _. split; [reflexivity|assumption].
Qed.
Lemma rconv_fails : forall f m s, fails (m s) -> fails (rconv f m s).
Proof. intros f m s (a & e & s' & E). unfold rconv. rewrite E. cbn [obind]. eexists _, _, _. reflexivity. Qed.
Lemma fails_ends : forall A (o : outcome (A * option err * jr)) l, fails o -> ends3 o l.
Proof. intros A o l F. now left. Qed.

(** Nothing left *)
Lemma ParseNum_spent : forall pick c l b prev, view k b prev [] [] -> SIT (b, c :: l) -> fails (ParseNum J pick (b, c :: l)).
Proof.
  intros pick c l b prev V S.
  apply (proj2 (ParseNum_cut pick c l [48] b prev [] (sep c ++ [48]) V S eq_refl
    ltac:(destruct c; discriminate) ltac:(discriminate) eq_refl ltac:(discriminate) eq_refl) (or_introl eq_refl)).
Qed.
(** An integer, as a value or as a key *)
Lemma ReadI64_cut : forall c l z b prev p q, in_s 64 z -> view k b prev p [] -> SIT (b, c :: l) ->
  sep c ++ key_text c (FormatInt z) = p ++ q -> q <> [] ->
  ends3 (ReadI64 J (b, c :: l)) (after_value c :: l) /\ (p = [] \/ (length (key_text c (FormatInt z)) <= 1)%nat -> fails (ReadI64 J (b, c :: l))).
Proof.
  intros c l z b prev p q H V S E Q. destruct (numeric_format z H) as (N1 & N2 & N3 & x & R).
  destruct (wordy_num (FormatInt z)) as [W1 W2]; [eauto|].
  apply (ParseNum_cut fst c l (key_text c (FormatInt z)) b prev p q V S E Q); unfold key_text;
    (destruct (is_key c); [unfold quoted|]).
  - discriminate.
  - exact N1.
  - reflexivity.
  - destruct (FormatInt z); [congruence|exact N3].
  - cbn; lia.
  - exact N2.
  - cbn [app wordy]. rewrite W2. reflexivity.
  - exact W1.
Qed.
Lemma ReadDouble_cut : forall c l d b prev p q, float_ok J d -> view k b prev p [] -> SIT (b, c :: l) ->
  sep c ++ double_text J d = p ++ q -> q <> [] ->
  ends3 (ReadDouble J (b, c :: l)) (after_value c :: l).
Proof.
  intros c l d b prev p q H V S E Q.
  assert (G : forall T, double_text J d = T -> T <> [] -> nows T -> hd 0 T <> 110 -> wordy 1 T = true ->
              ends3 (ReadDouble J (b, c :: l)) (after_value c :: l)).
  { intros T ET N1 N2 N3 N4. rewrite ET in E. exact (proj1 (ParseNum_cut snd c l T b prev p q V S E Q N1 N2 N3 N4)). }
  unfold double_text in G.
  destruct (f64_is_nan d) eqn:En; [eapply G; [reflexivity|discriminate|reflexivity|cbn; lia|reflexivity]|].
  destruct (Z.eqb_spec d INF) as [->|Ni]; [eapply G; [reflexivity|discriminate|reflexivity|cbn; lia|reflexivity]|].
  destruct (Z.eqb_spec d NEG_INF) as [->|Nn]; [eapply G; [reflexivity|discriminate|reflexivity|cbn; lia|reflexivity]|].
  destruct H as [H|[H|[H|[H _]]]]; [congruence..|].
  destruct (number_numeric _ H) as (N1 & N2 & N3 & x & R).
  destruct (wordy_num (x_fmt64 (j_ext J) d)) as [W1 W2]; [eauto|].
  eapply G; [reflexivity|exact N1| |exact N2|exact W1]. destruct (x_fmt64 (j_ext J) d); [congruence|exact N3].
Qed.

(** ** Booleans *)
Lemma advance_over : forall n b, (length (b_un b) <= n)%nat -> b_advance n b = b_advance (length (b_un b)) b.
Proof. intros n b L. unfold b_advance. rewrite firstn_all2, skipn_all2, firstn_all, skipn_all by lia. reflexivity. Qed.
Lemma ReadBool_cut : forall c l (v : bool) b prev p q, view k b prev p [] -> SIT (b, c :: l) ->
  sep c ++ lit (if v then "true" else "false") = p ++ q -> q <> [] ->
  ends3 (ReadBool (b, c :: l)) (after_value c :: l).
Proof.
  intros c l v b prev p q V S E Q.
  destruct (bool_ret True I _ S) as (a & e & s' & ER & SR & _). rewrite ER.
  destruct e as [e|]; [left; eexists _, _, _; reflexivity|].
  right. exists a, s'. split; [reflexivity|].
  destruct (pre_cut b prev c l (lit (if v then "true" else "false")) p q V S E Q) as (b1 & pr1 & p1 & q1 & E1 & V1 & ET & Q1 & S1 & _ & _);
    [now destruct v|now destruct v|].
  unfold ReadBool, pre in ER. rewrite E1 in ER. cbn [obind] in ER.
  destruct (peek_view 5 _ _ _ _ _ V1) as (b2 & E2 & V2 & Lu); [lia|]. rewrite E2 in ER.
  pose proof (peek_SI _ _ _ _ _ _ S1 E2) as S2.
  assert (Lp : (length p1 < length (lit (if v then "true" else "false")))%nat).
  { rewrite ET, app_length. destruct q1; [congruence|cbn; lia]. }
  assert (L5 : (length p1 < 5)%nat) by (destruct v; cbn in Lp; lia).
  rewrite app_nil_r in Lu. pose proof (v_con _ _ _ _ _ V2) as C. rewrite app_nil_r in C.
  assert (Lq : length (b_un b2) = length p1) by (apply (f_equal (@length Z)) in C; rewrite app_length in C; lia).
  assert (Adv : forall n, (4 <= n)%nat -> p1 <> [] -> exists pr, view k (snd (b_read n b2)) pr [] []).
  { intros n Hn Pn. unfold b_read. destruct (b_un b2) as [|x u] eqn:U; [cbn in Lq; destruct p1; [congruence|discriminate]|].
    cbn [snd]. rewrite <- U in Lq. rewrite advance_over by lia.
    rewrite Lq. exists (last p1 pr1). apply advance_view; [rewrite app_nil_r; exact V2|lia]. }
  assert (Rd : forall n, SIT (snd (b_read n b2), c :: l)).
  { intros n. eapply SI_cons; [exact S2|]. apply (read_B True n b2 (proj1 S2)). }
  rewrite app_nil_r, firstn_all2 in ER by lia.
  destruct p1 as [|x p1].
  - destruct (post_spent bool false b2 pr1 c l V2 S2) as (s2 & Es & Sp). rewrite ER in Es. injection Es as _ <-. exact Sp.
  - assert (W : forall w v0, (4 <= length w)%nat ->
      (if (length (b_un b2 ++ b_after b2) <? length w)%nat then Panic
       else if beq (firstn (length w) (b_un b2 ++ b_after b2)) w
            then post v0 (snd (b_read (length w) b2), c :: l) else bad_data false (b2, c :: l)) = Ok (a, None, s') ->
      spent s' (after_value c :: l)).
    { intros w v0 Lw H. destruct (length (b_un b2 ++ b_after b2) <? length w)%nat; [discriminate|].
      destruct (beq (firstn (length w) (b_un b2 ++ b_after b2)) w); [|discriminate].
      destruct (Adv (length w) Lw ltac:(discriminate)) as [pr Va].
      destruct (post_spent bool v0 _ pr c l Va (Rd _)) as (s2 & Es & Sp). rewrite H in Es. injection Es as _ <-. exact Sp. }
    cbv iota zeta in ER.
    destruct (x =? 116); [exact (W (lit "true") true ltac:(cbn; lia) ER)|].
    destruct (x =? 102); [exact (W (lit "false") false ltac:(cbn; lia) ER)|].
    destruct (x =? 110); [exact (W (lit "null") false ltac:(cbn; lia) ER)|discriminate].
Qed.

(** ** Strings *)
Lemma os_some : forall e, exists e', protocol_exc_from_os (Some e) = Some e'.
Proof. intros []; cbn; eauto. Qed.
Lemma quoted_body_cut : forall fuel w x y b prev r b', body w -> fits k w -> w = x ++ y -> view k b prev x [] ->
  ParseQuotedStringBody fuel b = Ok (r, b') -> exists e, r = inr (Some e).
Proof.
  induction fuel as [|f IH]; intros w x y b prev r b' Bw Fi E V H; [discriminate|]. cbn [ParseQuotedStringBody] in H.
  destruct (in_dec Z.eq_dec 34 x) as [I34|N34].
  - destruct (body_split w Bw) as [[I0 _]|(w1 & w2 & Ew & I1 & Ev & B2)].
    { exfalso. apply I0. rewrite E. apply in_or_app. now left. }
    assert (X : exists x2, x = w1 ++ 34 :: x2 /\ w2 = x2 ++ y).
    { rewrite Ew in E. destruct (cut_app _ _ _ _ E) as [([|z x2] & -> & E2)|(q1 & -> & _ & _)].
      - exfalso. rewrite app_nil_r in I34. auto.
      - cbn [app] in E2. injection E2 as <- E2. eauto.
      - exfalso. apply I1. apply in_or_app. now left. }
    destruct X as (x2 & -> & E2).
    assert (Fi1 : fits k w1) by (eapply fits_le; [exact Fi|rewrite Ew, app_length; lia]).
    assert (Fi2 : fits k w2) by (eapply fits_le; [exact Fi|rewrite Ew, app_length; cbn [length]; lia]).
    destruct (until_view k b prev w1 34 x2 [] V I1 Fi1) as (b1 & Hu & V1). rewrite Hu, backslashes_trail, Ev in H.
    destruct (ParseQuotedStringBody f b1) as [[r2 b2]| |] eqn:E3; cbn [obind] in H; [|discriminate..].
    destruct (IH _ _ _ _ _ _ _ B2 Fi2 E2 V1 E3) as [e ->].
    destruct (os_some e) as [e' O]. rewrite O in H. injection H as <- _. eauto.
  - destruct (until_cut k b prev 34 x V N34) as (l & e & b1 & Hu). rewrite Hu in H.
    destruct (os_some e) as [e' O]. rewrite O in H. injection H as <- _. eauto.
Qed.
Lemma string_body_cut : forall w x y b prev v e b', body w -> fits k w -> w = x ++ y -> view k b prev x [] ->
  ParseStringBody b = Ok (v, e, b') -> exists e', e = Some e'.
Proof.
  intros w x y b prev v e b' Bw Fi E V H. unfold ParseStringBody in H.
  destruct (in_dec Z.eq_dec 34 x) as [I34|N34].
  - destruct (body_split w Bw) as [[I0 _]|(w1 & w2 & Ew & I1 & Ev & B2)].
    { exfalso. apply I0. rewrite E. apply in_or_app. now left. }
    assert (X : exists x2, x = w1 ++ 34 :: x2 /\ w2 = x2 ++ y).
    { rewrite Ew in E. destruct (cut_app _ _ _ _ E) as [([|z x2] & -> & E2)|(q1 & -> & _ & _)].
      - exfalso. rewrite app_nil_r in I34. auto.
      - cbn [app] in E2. injection E2 as <- E2. eauto.
      - exfalso. apply I1. apply in_or_app. now left. }
    destruct X as (x2 & -> & E2).
    assert (Fi1 : fits k w1) by (eapply fits_le; [exact Fi|rewrite Ew, app_length; lia]).
    assert (Fi2 : fits k w2) by (eapply fits_le; [exact Fi|rewrite Ew, app_length; cbn [length]; lia]).
    destruct (until_view k b prev w1 34 x2 [] V I1 Fi1) as (b1 & Hu & V1). rewrite Hu, backslashes_trail, Ev in H.
    destruct (ParseQuotedStringBody (str_fuel b1) b1) as [[r2 b2]| |] eqn:E3; cbn [obind] in H; [|discriminate..].
    destruct (quoted_body_cut _ _ _ _ _ _ _ _ B2 Fi2 E2 V1 E3) as [e0 ->]. destruct (os_some e0) as [e' O]. rewrite O in H. injection H as _ <- _. eauto.
  - destruct (until_cut k b prev 34 x V N34) as (l & e0 & b1 & Hu). rewrite Hu in H. destruct (os_some e0) as [e' O]. rewrite O in H. injection H as _ <- _. eauto.
Qed.
Lemma read_quoted_cut : forall bd c l w b prev p q, view k b prev p [] -> SIT (b, c :: l) ->
  sep c ++ quoted w = p ++ q -> q <> [] -> bret True bd ->
  (forall x y b0 prev0 v e b1, w = x ++ y -> view k b0 prev0 x [] -> bd b0 = Ok (v, e, b1) -> exists e', e = Some e') ->
  fails (read_quoted bd (b, c :: l)).
Proof.
  intros bd c l w b prev p q V S E Q Rt H.
  destruct (quoted_ret True bd Rt _ S) as (a & e & s' & ER & SR & _). rewrite ER.
  destruct e as [e|]; [eexists _, _, _; reflexivity|]. exfalso.
  destruct (pre_cut b prev c l (quoted w) p q V S E Q) as (b1 & pr1 & p1 & q1 & E1 & V1 & ET & Q1 & S1 & _ & _);
    [discriminate|reflexivity|].
  unfold read_quoted, pre in ER. rewrite E1 in ER. cbn [obind] in ER.
  destruct (peek_view 4 _ _ _ _ _ V1) as (b2 & E2 & V2 & _); [lia|]. rewrite E2 in ER.
  rewrite app_nil_r in ER. unfold quoted in ET. cbn [app] in ET. destruct p1 as [|x p1]; [cbn in ER; discriminate|].
  cbn [app] in ET. injection ET as <- ET. cbn [firstn] in ER.
  destruct (byte_view _ _ _ _ _ _ V2) as (b3 & B3 & V3). rewrite B3 in ER. cbn [snd] in ER.
  assert (X : exists y, w = p1 ++ y).
  { destruct (cut_app _ _ _ _ ET) as [(p2 & -> & E3)|(q2 & -> & _)]; [|eauto].
    destruct p2 as [|z p2]; [exists []; now rewrite !app_nil_r|].
    cbn [app] in E3. injection E3 as _ E3. symmetry in E3. apply app_eq_nil in E3. tauto. }
  destruct X as [y Ew].
  destruct (bd b3) as [[[v e] b4]| |] eqn:E4; cbn [obind] in ER; [|discriminate..].
  destruct (H _ _ _ _ _ _ _ Ew V3 E4) as [e' ->]. discriminate.
Qed.
Lemma ReadString_cut : forall st c l s b prev p q, (exists cs, Forall scalar cs /\ s = utf8 cs) -> fits k (json_quote st s) ->
  view k b prev p [] -> SIT (b, c :: l) -> sep c ++ json_quote st s = p ++ q -> q <> [] ->
  fails (ReadString (b, c :: l)).
Proof.
  intros st c l s b prev p q (cs & F & ->) Fi V S E Q. rewrite json_quote_utf8 in * by assumption.
  change (quote_text st cs) with (quoted (flat_map (esc st) cs)) in *.
  eapply read_quoted_cut; [exact V|exact S|exact E|exact Q|apply string_body_ret|].
  intros x y b0 prev0 v e b1 Ew V0 H. eapply string_body_cut; [apply (body_escs st _ F)| |exact Ew|exact V0|exact H].
  eapply fits_le; [exact Fi|]. unfold quoted. rewrite !app_length. lia.
Qed.
Lemma type_fits : forall b prev p rest t, view k b prev p rest -> fits k (json_quote st10 (TypeIdToString t)).
Proof.
  intros b prev p rest t V. rewrite json_quote_plain by apply type_plain. pose proof (v_room _ _ _ _ _ V) as Ro.
  destruct k as [|k0| |]; try exact I. unfold fits, quoted. destruct Ro as [Ro _].
  pose proof (type_short t). rewrite !app_length. cbn [length]. lia.
Qed.
Lemma ReadString_type_cut : forall c l t b prev p q,
  view k b prev p [] -> SIT (b, c :: l) -> sep c ++ type_text t = p ++ q -> q <> [] ->
  fails (ReadString (b, c :: l)).
Proof.
  intros c l t b prev p q V S E Q. unfold type_text in E. rewrite <- (json_quote_plain st10) in E by apply type_plain.
  destruct (plain_utf8 _ (type_plain t)) as [U Sc].
  eapply (ReadString_cut st10); [exists (TypeIdToString t); split; [exact Sc|exact U]|eapply type_fits; exact V|exact V|exact S|exact E|exact Q].
Qed.
Lemma ReadString_spent : forall c l b prev, view k b prev [] [] -> SIT (b, c :: l) -> fails (ReadString (b, c :: l)).
Proof.
  intros c l b prev V S. apply (ReadString_type_cut c l 0 b prev [] (sep c ++ type_text 0) V S eq_refl).
  destruct c; discriminate.
Qed.

(** ** Brackets *)
Lemma ListBegin_cut : forall c l s b prev p q, view k b prev p [] -> SIT (b, c :: l) ->
  sep c ++ 91 :: s = p ++ q -> q <> [] ->
  fails (ParseListBegin (b, c :: l)) \/
  exists b' p', ParseListBegin (b, c :: l) = Ok (false, None, (b', ListFirst :: c :: l)) /\ view k b' 91 p' [] /\
    s = p' ++ q /\ SIT (b', ListFirst :: c :: l).
Proof.
  intros c l s b prev p q V S E Q. pose proof (list_begin_ret True _ S) as (a0 & e0 & s0 & ER & SR & _).
  destruct (pre_cut b prev c l (91 :: s) p q V S E Q) as (b1 & pr1 & p1 & q1 & E1 & V1 & ET & Q1 & S1 & P0 & Eq);
    [discriminate|reflexivity|].
  rewrite ER. unfold ParseListBegin, pre in ER. rewrite E1 in ER. cbn [obind] in ER.
  destruct (peek_view 4 _ _ _ _ _ V1) as (b2 & E2 & V2 & _); [lia|]. rewrite E2 in ER.
  rewrite app_nil_r in ER. destruct p1 as [|x p1].
  { cbn in ER. injection ER as <- <- <-. left. eexists _, _, _. reflexivity. }
  cbn [app] in ET. injection ET as <- ET. cbn [firstn] in ER.
  destruct (4 <=? length (91%Z :: p1))%nat; [|injection ER as <- <- <-; left; eexists _, _, _; reflexivity].
  destruct (byte_view _ _ _ _ _ _ V2) as (b3 & B3 & V3). rewrite B3 in ER. cbn [snd] in ER.
  injection ER as <- <- <-. right. exists b3, p1. split; [reflexivity|]. split; [exact V3|].
  rewrite <- Eq by discriminate. split; [exact ET|exact SR].
Qed.
Lemma ObjectStart_cut : forall c l s b prev p q, view k b prev p [] -> SIT (b, c :: l) ->
  sep c ++ 123 :: s = p ++ q -> q <> [] ->
  fails (ParseObjectStart (b, c :: l)) \/
  exists b' p', ParseObjectStart (b, c :: l) = Ok (false, None, (b', ObjFirst :: c :: l)) /\ view k b' 123 p' [] /\
    s = p' ++ q /\ SIT (b', ObjFirst :: c :: l).
Proof.
  intros c l s b prev p q V S E Q. pose proof (object_start_ret True _ S) as (a0 & e0 & s0 & ER & SR & _).
  destruct (pre_cut b prev c l (123 :: s) p q V S E Q) as (b1 & pr1 & p1 & q1 & E1 & V1 & ET & Q1 & S1 & P0 & Eq);
    [discriminate|reflexivity|].
  rewrite ER. unfold ParseObjectStart, pre in ER. rewrite E1 in ER. cbn [obind] in ER.
  destruct (peek_view 4 _ _ _ _ _ V1) as (b2 & E2 & V2 & _); [lia|]. rewrite E2 in ER.
  rewrite app_nil_r in ER. destruct p1 as [|x p1].
  { cbn in ER. injection ER as <- <- <-. left. eexists _, _, _. reflexivity. }
  cbn [app] in ET. injection ET as <- ET. cbn [firstn] in ER.
  destruct (byte_view _ _ _ _ _ _ V2) as (b3 & B3 & V3). rewrite B3 in ER. cbn [snd] in ER.
  injection ER as <- <- <-. right. exists b3, p1. split; [reflexivity|]. split; [exact V3|].
  rewrite <- Eq by discriminate. split; [exact ET|exact SR].
Qed.
Lemma spent_inv : forall s l, spent s l -> exists b prev, s = (b, l) /\ view k b prev [] [] /\ SIT (b, l).
Proof. intros [b l'] l (E & (prev & V) & S). cbn in E, V. subst l'. eauto. Qed.
Lemma ListBegin_spent : forall s c l, spent s (c :: l) -> fails (ParseListBegin s).
Proof.
  intros s c l Sp. apply spent_inv in Sp. destruct Sp as (b & prev & -> & V & S).
  assert (N : sep c ++ [91] <> []) by (destruct c; discriminate).
  destruct (ListBegin_cut c l [] b prev [] _ V S eq_refl N) as [F|(b' & p' & _ & _ & E & _)]; [exact F|].
  exfalso. symmetry in E. apply app_eq_nil in E. tauto.
Qed.
Lemma ObjectStart_spent : forall s c l, spent s (c :: l) -> fails (ParseObjectStart s).
Proof.
  intros s c l Sp. apply spent_inv in Sp. destruct Sp as (b & prev & -> & V & S).
  assert (N : sep c ++ [123] <> []) by (destruct c; discriminate).
  destruct (ObjectStart_cut c l [] b prev [] _ V S eq_refl N) as [F|(b' & p' & _ & _ & E & _)]; [exact F|].
  exfalso. symmetry in E. apply app_eq_nil in E. tauto.
Qed.
Lemma end_spent : forall inside close s d l, spent s (d :: l) -> hfails (hdo (parse_end inside close) s).
Proof.
  intros inside close s d l Sp. apply spent_inv in Sp. destruct Sp as (b & prev & -> & V & S). unfold hdo, parse_end.
  destruct (not_null _ _ _ _ _ V I) as (b1 & -> & V1); [cbn; lia|].
  destruct (inside d); [|cbn [obind]; eexists _, _; reflexivity].
  destruct (until_cut k b1 prev close [] V1) as (ln & e & b2 & ->); [auto|].
  destruct (os_some e) as [e' ->]. cbn [obind]. eexists _, _. reflexivity.
Qed.

(** ** Headers *)
Lemma ReadI64_spent : forall s c l, spent s (c :: l) -> fails (ReadI64 J s).
Proof. intros s c l Sp. apply spent_inv in Sp. destruct Sp as (b & prev & -> & V & S). eapply ParseNum_spent; eassumption. Qed.

Lemma ret_SI : forall A (m : rop jr A) s a e s', ret True m -> SIT s -> m s = Ok (a, e, s') -> SIT s'.
Proof. intros A m s a e s' R S E. destruct (R s S) as (a' & e' & s2 & E2 & S2 & _). rewrite E in E2. now injection E2 as <- <- <-. Qed.

(** The size at the end of a header. *)
Lemma size_cut : forall n l b prev p q, in_s 64 n -> view k b prev p [] -> SIT (b, InList :: l) ->
  [44] ++ FormatInt n = p ++ q -> q <> [] ->
  fails (ReadI64 J (b, InList :: l)) \/ n <> 0 /\ exists n' s', ReadI64 J (b, InList :: l) = Ok (n', None, s') /\ spent s' (InList :: l).
Proof.
  intros n l b prev p q H V S E Q.
  destruct (ReadI64_cut InList l n b prev p q H V S E Q) as [[F|(n' & s' & E1 & Sp)] F0]; [now left|].
  destruct (Z.eq_dec n 0) as [->|N].
  - left. apply F0. right. cbn. lia.
  - right. split; [assumption|]. eauto.
Qed.
Lemma ElemList_cut : forall c l et n b prev p q, in_u 8 et -> in_s 64 n -> view k b prev p [] -> SIT (b, c :: l) ->
  sep c ++ [91] ++ FormatInt et ++ [44] ++ FormatInt n = p ++ q -> q <> [] ->
  fails (ParseElemListBegin J (b, c :: l)) \/
  n <> 0 /\ exists h s', ParseElemListBegin J (b, c :: l) = Ok (h, None, s') /\ spent s' (InList :: c :: l).
Proof.
  intros c l et n b prev p q He Hn V S E Q. unfold ParseElemListBegin.
  assert (He64 : in_s 64 et) by (unfold in_u, in_s in *; lia).
  destruct (ListBegin_cut c l _ b prev p q V S E Q) as [(a & e & s' & F)|(b1 & p1 & E1 & V1 & T1 & S1)].
  { rewrite F. cbn [obind]. left. destruct a; eexists _, _, _; reflexivity. }
  rewrite E1. cbn [obind]. clear E.
  destruct (cut_app _ _ _ _ T1) as [(p2 & -> & E2)|(q1 & E2 & Q1 & _)].
  - unfold ReadByte.
    destruct (rconv_view J k (wrapu 8) ListFirst et b1 91 p2 [] (c :: l) (rdy k Kl _ _) He64) as (b2 & pr2 & E3 & V2);
      [unfold wrapu, in_u in *; apply Z.mod_small; lia|exact V1|eapply delim_prefix; [|exact E2]; cbn; tauto|].
    pose proof (ret_SI _ _ _ _ _ _ (byte_ret True J) S1 E3) as S2. rewrite E3. cbn [obind after_value] in *.
    destruct (size_cut n (c :: l) b2 pr2 p2 q Hn V2 S2 E2 Q) as [(a & e & s' & F)|(N & n' & s' & F & Sp)]; rewrite F; cbn [obind].
    + left. eexists _, _, _. reflexivity.
    + right. split; [assumption|]. eexists _, _. split; [reflexivity|exact Sp].
  - destruct (ReadI64_cut ListFirst (c :: l) et b1 91 p1 q1 He64 V1 S1 E2 Q1) as [Ed _].
    apply (rconv_ends (wrapu 8)) in Ed. fold (ReadByte J) in Ed.
    destruct Ed as [(a & e & s' & F)|(a & s' & F & Sp)]; rewrite F; cbn [obind].
    + left. eexists _, _, _. reflexivity.
    + destruct (ReadI64_spent _ _ _ Sp) as (a2 & e2 & s2 & F2). rewrite F2. cbn [obind]. left. eexists _, _, _. reflexivity.
Qed.
Lemma MapBegin_cut : forall c l kt vt n b prev p q, in_s 64 n -> view k b prev p [] -> SIT (b, c :: l) ->
  sep c ++ [91] ++ type_text kt ++ [44] ++ type_text vt ++ [44] ++ FormatInt n = p ++ q -> q <> [] ->
  fails (jReadMapBegin J (b, c :: l)) \/
  n <> 0 /\ exists h s', jReadMapBegin J (b, c :: l) = Ok (h, None, s') /\ spent s' (InList :: c :: l).
Proof.
  intros c l kt vt n b prev p q Hn V S E Q. unfold jReadMapBegin.
  destruct (ListBegin_cut c l _ b prev p q V S E Q) as [(a & e & s' & F)|(b1 & p1 & E1 & V1 & T1 & S1)].
  { rewrite F. cbn [obind]. left. destruct a; eexists _, _, _; reflexivity. }
  rewrite E1. cbn [obind]. clear E.
  destruct (cut_app _ _ _ _ T1) as [(p2 & -> & E2)|(q1 & E2 & Q1 & _)].
  2:{ destruct (ReadString_type_cut ListFirst (c :: l) kt b1 91 p1 q1 V1 S1 E2 Q1) as (a & e & s' & F).
      rewrite F. cbn [obind]. left. eexists _, _, _. reflexivity. }
  destruct (ReadString_type ListFirst kt k b1 91 p2 [] (c :: l) (rdy k Kl _ _) V1) as (b2 & E3 & V2);
    [eapply nows_prefix; [|exact E2]; reflexivity|].
  pose proof (ret_SI _ _ _ _ _ _ (string_ret True) S1 E3) as S2. rewrite E3. cbn [obind after_value] in *.
  rewrite app_assoc in E2. destruct (cut_app _ _ _ _ E2) as [(p3 & -> & E4)|(q1 & E4 & Q1 & _)].
  2:{ destruct (ReadString_type_cut InList (c :: l) vt b2 34 p2 q1 V2 S2 E4 Q1) as (a & e & s' & F).
      rewrite F. cbn [obind]. left. eexists _, _, _. reflexivity. }
  rewrite <- app_assoc in V2.
  destruct (ReadString_type InList vt k b2 34 p3 [] (c :: l) (rdy k Kl _ _) V2) as (b3 & E5 & V3);
    [eapply nows_prefix; [|exact E4]; reflexivity|].
  pose proof (ret_SI _ _ _ _ _ _ (string_ret True) S2 E5) as S3. rewrite E5. cbn [obind after_value] in *.
  destruct (size_cut n (c :: l) b3 34 p3 q Hn V3 S3 E4 Q) as [(a & e & s' & F)|(N & n' & s' & F & Sp)]; rewrite F; cbn [obind].
  + left. eexists _, _, _. reflexivity.
  + right. split; [assumption|]. eexists _, _. split; [reflexivity|exact Sp].
Qed.
Lemma FieldBegin_spent : forall s l, spent s l -> exists id, jReadFieldBegin J s = Ok (([], STOP, id), None, s).
Proof.
  intros s l Sp. apply spent_inv in Sp. destruct Sp as (b & prev & -> & V & S). exists (-1).
  unfold jReadFieldBegin. cbn [fst]. pose proof (v_con _ _ _ _ _ V) as C. apply app_eq_nil in C. destruct C as [-> _]. reflexivity.
Qed.
Lemma FieldBegin_cut : forall c l id t b prev p q, is_key c = true -> in_s 16 id -> p <> [] ->
  view k b prev p [] -> SIT (b, c :: l) -> (c = ObjFirst -> prev = 123) ->
  sep c ++ quoted (FormatInt id) ++ [58; 123] ++ type_text t = p ++ q -> q <> [] ->
  fails (jReadFieldBegin J (b, c :: l)).
Proof.
  intros c l id t b prev p q K Hid Pn V S Hp E Q. unfold jReadFieldBegin. cbn [fst].
  assert (U : exists x u, b_un b = x :: u /\ (x =? 125) || (x =? 93) = false).
  { destruct p as [|x p]; [congruence|]. exists x. destruct c; try discriminate K; cbn [sep app quoted] in E; injection E as <- E.
    - rewrite Hp in V by reflexivity. destruct (tight_un _ _ _ _ _ _ Kl V (tight_brace _)) as [u U]. exists u. auto.
    - destruct (tight_un _ _ _ _ _ _ Kl V (tight_comma _)) as [u U]. exists u. auto. }
  destruct U as (x & u & -> & ->).
  assert (H64 : in_s 64 id) by (apply (in_s_64 16); [lia|assumption]).
  assert (Ka : after_value c = NextValue) by (destruct c; try discriminate K; reflexivity).
  rewrite app_assoc in E. destruct (cut_app _ _ _ _ E) as [(p2 & -> & E2)|(q1 & E2 & Q1 & _)].
  - rewrite <- app_assoc in V. unfold ReadI16.
    destruct (rconv_view J k (wraps 16) c id b prev p2 [] l (rdy k Kl _ _) H64) as (b1 & pr1 & E3 & V1);
      [now apply wraps_id|unfold key_text; rewrite K; exact V|eapply delim_prefix; [|exact E2]; cbn; tauto|].
    pose proof (ret_SI _ _ _ _ _ _ (i16_ret True J) S E3) as S1. rewrite E3. cbn [obind]. rewrite Ka in *.
    destruct (ObjectStart_cut NextValue l (type_text t) b1 pr1 p2 q V1 S1 E2 Q) as [(a & e & s' & F)|(b2 & p3 & E4 & V2 & T2 & S2)].
    { rewrite F. cbn [obind]. eexists _, _, _. reflexivity. }
    rewrite E4. cbn [obind].
    destruct (ReadString_type_cut ObjFirst (NextValue :: l) t b2 123 p3 q V2 S2 T2 Q) as (a & e & s' & F).
    rewrite F. cbn [obind]. eexists _, _, _. reflexivity.
  - destruct (ReadI64_cut c l id b prev p q1 H64 V S) as [Ed _]; [unfold key_text; rewrite K; exact E2|exact Q1|].
    apply (rconv_ends (wraps 16)) in Ed. fold (ReadI16 J) in Ed. rewrite Ka in Ed.
    destruct Ed as [(a & e & s' & F)|(a & s' & F & Sp)]; rewrite F; cbn [obind].
    + eexists _, _, _. reflexivity.
    + destruct (ObjectStart_spent _ _ _ Sp) as (a2 & e2 & s2 & F2). rewrite F2. cbn [obind]. eexists _, _, _. reflexivity.
Qed.

(** ** Values *)
Definition hkeep {A} (m : hop jr A) : Prop := forall s r s', SIT s -> m s = Ok (r, s') -> SIT s'.
Lemma hkeep_bind : forall A C (m : hop jr A) (K : A -> hop jr C), hkeep m -> (forall a, hkeep (K a)) -> hkeep (hbind m K).
Proof.
  intros A C m K Hm HK s r s' S E. unfold hbind in E. destruct (m s) as [[r1 s1]| |] eqn:E1; cbn [obind] in E; [|discriminate..].
  pose proof (Hm _ _ _ S E1) as S1. destruct r1; [eapply HK; eassumption|]. now injection E as <- <-.
Qed.
Lemma hkeep_ret : forall A (a : A), hkeep (hret a).
Proof. intros A a s r s' S E. unfold hret in E. now injection E as <- <-. Qed.
Lemma hkeep_fail : forall A e, hkeep (@hfail jr A e).
Proof. intros A a s r s' S E. unfold hfail in E. now injection E as <- <-. Qed.
Lemma hkeep_lift : forall A (m : rop jr A), ret True m -> hkeep (hlift m).
Proof.
  intros A m R s r s' S E. unfold hlift in E. destruct (R s S) as (a & e & s1 & E1 & S1 & _). rewrite E1 in E. cbn [obind] in E.
  destruct e; now injection E as <- <-.
Qed.
Lemma hkeep_do : forall (m : wop jr), wret True m -> hkeep (hdo m).
Proof.
  intros m R s r s' S E. unfold hdo in E. destruct (R s S) as (e & s1 & E1 & S1 & _). rewrite E1 in E. cbn [obind] in E.
  destruct e; now injection E as <- <-.
Qed.
Lemma hkeep_repeat : forall A (m : hop jr A) n, hkeep m -> hkeep (hrepeat n m).
Proof.
  intros A m n H. induction n as [|n IH]; cbn [hrepeat]; [apply hkeep_ret|].
  apply hkeep_bind; [assumption|]. intros a. apply hkeep_bind; [assumption|]. intros. apply hkeep_ret.
Qed.
Lemma read_val_keeps : forall f, (forall t, hkeep (read_val (jsonR J) f t)) /\ hkeep (read_fields (jsonR J) f).
Proof.
  induction f as [|f [IHv IHf]]; [split; [intros t|]; intros s r s' S E; discriminate|].
  split.
  - intros t. cbn [read_val].
    repeat match goal with |- hkeep (if ?c then _ else _) => destruct c end;
    repeat first [ apply hkeep_ret | apply hkeep_fail
      | apply hkeep_lift; first [ apply (bool_ret True I) | apply byte_ret | apply i16_ret | apply i32_ret | apply i64_ret | apply num_ret
          | apply string_ret | apply elem_list_ret | apply j_map_ret | apply struct_begin_ret ]
      | apply hkeep_do; apply end_ret; reflexivity
      | apply IHv | apply IHf | apply hkeep_repeat
      | apply hkeep_bind; [|intros]
      | match goal with |- hkeep (match ?x with (_, _) => _ end) => destruct x end ].
  - rewrite read_fields_S.
    repeat first [ apply hkeep_ret | apply hkeep_lift; apply j_field_ret
      | apply hkeep_do; apply end_ret; reflexivity | apply IHv | apply IHf
      | apply hkeep_bind; [|intros]
      | match goal with |- hkeep (match ?x with (_, _) => _ end) => destruct x end
      | match goal with |- hkeep (if ?c then _ else _) => destruct c end ].
Qed.

Lemma hfails_bind : forall A C (m : hop jr A) (K : A -> hop jr C) s, hfails (m s) -> hfails (hbind m K s).
Proof. intros A C m K s (e & s' & E). unfold hbind. rewrite E. cbn [obind]. eexists _, _. reflexivity. Qed.
Lemma hends_bind : forall A C (m : hop jr A) (K : A -> hop jr C) s l l', hends (m s) l ->
  (forall a s', spent s' l -> hends (K a s') l') -> hends (hbind m K s) l'.
Proof.
  intros A C m K s l l' [F|(a & s' & E & Sp)] H; [left; now apply hfails_bind|].
  unfold hbind. rewrite E. cbn [obind]. now apply H.
Qed.
Lemma hends_bind_fails : forall A C (m : hop jr A) (K : A -> hop jr C) s l, hends (m s) l ->
  (forall a s', spent s' l -> hfails (K a s')) -> hfails (hbind m K s).
Proof.
  intros A C m K s l [F|(a & s' & E & Sp)] H; [now apply hfails_bind|].
  unfold hbind. rewrite E. cbn [obind]. now apply H.
Qed.
Lemma hbind_ok : forall A C (m : hop jr A) (K : A -> hop jr C) s a s', m s = Ok (inl a, s') -> hbind m K s = K a s'.
Proof. intros A C m K s a s' E. unfold hbind. rewrite E. reflexivity. Qed.
Lemma hends_ret : forall A (a : A) s l, spent s l -> hends (hret a s) l.
Proof. intros A a s l Sp. right. exists a, s. auto. Qed.
Lemma lift_fails : forall A (m : rop jr A) s, fails (m s) -> hfails (hlift m s).
Proof. intros A m s (a & e & s' & E). unfold hlift. rewrite E. cbn [obind]. eexists _, _. reflexivity. Qed.
Lemma lift_ends : forall A (m : rop jr A) s l, ends3 (m s) l -> hends (hlift m s) l.
Proof.
  intros A m s l [F|(a & s' & E & Sp)]; [left; now apply lift_fails|]. right. exists a, s'. split; [|assumption].
  unfold hlift. now rewrite E.
Qed.
Lemma lift_ok : forall A (m : rop jr A) s a s', m s = Ok (a, None, s') -> hlift m s = Ok (inl a, s').
Proof. intros A m s a s' E. unfold hlift. now rewrite E. Qed.
Lemma do_ok : forall (m : wop jr) s s', m s = Ok (None, s') -> hdo m s = Ok (inl tt, s').
Proof. intros m s s' E. unfold hdo. now rewrite E. Qed.

Lemma spent_repeat : forall A (m : hop jr A) l, (forall s, spent s l -> hends (m s) l) ->
  forall n s, spent s l -> hends (hrepeat n m s) l.
Proof.
  intros A m l H. induction n as [|n IH]; intros s Sp; cbn [hrepeat]; [now apply hends_ret|].
  eapply hends_bind; [now apply H|]. intros a s' Sp'. eapply hends_bind; [now apply IH|]. intros. now apply hends_ret.
Qed.
(** A value of whatever type read when nothing is left. *)
Lemma spent_val : forall f t s c l, (1 <= f)%nat -> spent s (c :: l) ->
  hends (read_val (jsonR J) f t s) (after_value c :: l).
Proof.
  intros [|f] t s c l L Sp; [lia|]. cbn [read_val].
  assert (Num : forall pick, fails (ParseNum J pick s)).
  { intros pick. apply spent_inv in Sp. destruct Sp as (b & prev & -> & V & S). eapply ParseNum_spent; eassumption. }
  assert (LB : fails (ParseListBegin s)) by (eapply ListBegin_spent; eassumption).
  assert (N : forall fz A (K : Z -> hop jr A), hends (hbind (hlift (rconv fz (ReadI64 J))) K s) (after_value c :: l)).
  { intros fz A K. left. apply hfails_bind, lift_fails, rconv_fails, Num. }
  destruct (t =? BOOL).
  { eapply hends_bind with (l := after_value c :: l); [apply lift_ends|intros; now apply hends_ret].
    apply spent_inv in Sp. destruct Sp as (b & prev & -> & V & S).
    apply (ReadBool_cut c l true b prev [] (sep c ++ lit "true") V S eq_refl). destruct c; discriminate. }
  destruct (t =? BYTE); [apply N|].
  destruct (t =? I16); [apply N|].
  destruct (t =? I32); [apply N|].
  destruct (t =? I64); [left; apply hfails_bind, lift_fails, Num|].
  destruct (t =? DOUBLE); [left; apply hfails_bind, lift_fails, Num|].
  destruct (t =? STRING).
  { left. apply hfails_bind, lift_fails. apply spent_inv in Sp. destruct Sp as (b & prev & -> & V & S).
    eapply ReadString_spent; eassumption. }
  assert (EL : fails (ParseElemListBegin J s)).
  { destruct LB as (a & e & s' & E). unfold ParseElemListBegin. rewrite E. cbn [obind]. destruct a; eexists _, _, _; reflexivity. }
  destruct (t =? LIST); [left; apply hfails_bind, lift_fails, EL|].
  destruct (t =? SET); [left; apply hfails_bind, lift_fails, EL|].
  destruct (t =? MAP).
  { left. apply hfails_bind, lift_fails. destruct LB as (a & e & s' & E). cbn [rMapBegin jsonR]. unfold jReadMapBegin. rewrite E. cbn [obind].
    destruct a; eexists _, _, _; reflexivity. }
  destruct (t =? STRUCT).
  { left. apply hfails_bind, lift_fails. destruct (ObjectStart_spent _ _ _ Sp) as (a & e & s' & E). cbn [rStructBegin jsonR].
    unfold ReadStructBegin. rewrite E. cbn [obind]. eexists _, _, _; reflexivity. }
  left. eexists _, _. reflexivity.
Qed.

Definition sealed (v : tval) : bool :=
  match v with VStr _ | VList _ _ | VSet _ _ | VMap _ _ _ | VStruct _ => true | _ => false end.
Definition cutv (v : tval) : Prop :=
  wf v -> plain_val J k v -> forall c l f b prev p q, is_key c = false -> (need v <= f)%nat ->
  view k b prev p [] -> SIT (b, c :: l) -> sep c ++ vtext J v = p ++ q -> q <> [] ->
  if sealed v then hfails (read_val (jsonR J) f (vtype v) (b, c :: l))
  else hends (read_val (jsonR J) f (vtype v) (b, c :: l)) (after_value c :: l).
Lemma cutv_ends : forall v, cutv v -> wf v -> plain_val J k v -> forall c l f b prev p q, is_key c = false -> (need v <= f)%nat ->
  view k b prev p [] -> SIT (b, c :: l) -> sep c ++ vtext J v = p ++ q -> q <> [] ->
  hends (read_val (jsonR J) f (vtype v) (b, c :: l)) (after_value c :: l).
Proof.
  intros v H W P c l f b prev p q K L V S E Q. specialize (H W P c l f b prev p q K L V S E Q).
  destruct (sealed v); [left; exact H|exact H].
Qed.
Lemma need_pos : forall v, (1 <= need v)%nat.
Proof. intros []; cbn [need]; lia. Qed.
(** A value read whole from a text that ends later. *)
Lemma val_whole : forall v, wf v -> plain_val J k v -> forall c l f b prev p2 T2 q, is_key c = false -> (need v <= f)%nat ->
  view k b prev ((sep c ++ vtext J v) ++ p2) [] -> SIT (b, c :: l) -> T2 = p2 ++ q -> delim T2 ->
  exists b' prev', read_val (jsonR J) f (vtype v) (b, c :: l) = Ok (inl (canon v), (b', after_value c :: l)) /\
    view k b' prev' p2 [] /\ SIT (b', after_value c :: l).
Proof.
  intros v W P c l f b prev p2 T2 q K L V S E D.
  destruct (read_val_good J k Kl v W P c l f K L b prev p2 [] V) as (b' & prev' & E1 & V1).
  { apply follows_delim. eapply delim_prefix; [exact D|exact E]. }
  exists b', prev'. split; [exact E1|]. split; [exact V1|]. exact (proj1 (read_val_keeps f) _ _ _ _ S E1).
Qed.

Lemma items_cut : forall et l0, Forall cutv l0 -> all (fun x => vtype x = et /\ wf x) l0 -> all (plain_val J k) l0 ->
  forall f l b prev p q, (max_list (map need l0) <= f)%nat -> view k b prev p [] -> SIT (b, InList :: l) ->
  commas (map (vtext J) l0) ++ [93] = p ++ q -> q <> [] ->
  hends (hrepeat (length l0) (read_val (jsonR J) f et) (b, InList :: l)) (InList :: l).
Proof.
  intros et l0 G. induction G as [|v l0 Gv G IH]; intros W P f l b prev p q L V S E Q.
  - assert (p = []) as ->.
    { cbn in E. destruct p as [|x p]; [reflexivity|]. cbn [app] in E. injection E as _ E. symmetry in E.
      apply app_eq_nil in E. tauto. }
    cbn [length hrepeat]. apply hends_ret. now apply at_spent with prev.
  - destruct W as [[Wt Wv] W]. destruct P as [Pv P]. cbn [map max_list fold_right] in L. fold (max_list (map need l0)) in L.
    pose proof (need_pos v).
    assert (E' : (sep InList ++ vtext J v) ++ (commas (map (vtext J) l0) ++ [93]) = p ++ q).
    { rewrite <- E. unfold commas. cbn [map flat_map sep app]. now rewrite <- app_assoc. }
    clear E. cbn [length hrepeat]. subst et. destruct (cut_app _ _ _ _ E') as [(p2 & -> & E2)|(q1 & E2 & Q1 & _)].
    + destruct (val_whole v Wv Pv InList l f b prev p2 _ q eq_refl ltac:(lia) V S E2) as (b1 & pr1 & E3 & V1 & S1).
      { unfold commas. destruct l0; cbn; tauto. }
      rewrite (hbind_ok _ _ _ _ _ _ _ E3). cbn [after_value] in *.
      eapply hends_bind with (l := InList :: l); [eapply IH; [assumption..| |exact V1|exact S1|exact E2|exact Q]; lia|]. intros. now apply hends_ret.
    + eapply hends_bind; [exact (cutv_ends v Gv Wv Pv InList l f b prev p q1 eq_refl ltac:(lia) V S E2 Q1)|].
      cbn [after_value]. intros a s' Sp. eapply hends_bind with (l := InList :: l); [|intros; now apply hends_ret].
      apply spent_repeat; [|exact Sp]. intros s2 Sp2. apply (spent_val f (vtype v) s2 InList l); [lia|assumption].
Qed.
Definition pairs_text (l0 : list (tval * tval)) : bytes := flat_map (fun kv => 44 :: vtext J (fst kv) ++ 44 :: vtext J (snd kv)) l0.
Lemma pairs_cut : forall kt vt l0, Forall (fun kv => cutv (fst kv) /\ cutv (snd kv)) l0 ->
  all (fun kv => (vtype (fst kv) = kt /\ wf (fst kv)) /\ (vtype (snd kv) = vt /\ wf (snd kv))) l0 ->
  all (fun kv => plain_val J k (fst kv) /\ plain_val J k (snd kv)) l0 ->
  forall f l b prev p q, (max_list (map (fun kv => Nat.max (need (fst kv)) (need (snd kv))) l0) <= f)%nat ->
  view k b prev p [] -> SIT (b, InList :: l) -> pairs_text l0 ++ [93] = p ++ q -> q <> [] ->
  hends (hrepeat (length l0) (x <-- read_val (jsonR J) f kt ;; y <-- read_val (jsonR J) f vt ;; hret (x, y)) (b, InList :: l)) (InList :: l).
Proof.
  intros kt vt l0 G. induction G as [|[x y] l0 [Gx Gy] G IH]; intros W P f l b prev p q L V S E Q.
  - assert (p = []) as ->.
    { cbn in E. destruct p as [|x p]; [reflexivity|]. cbn [app] in E. injection E as _ E. symmetry in E.
      apply app_eq_nil in E. tauto. }
    cbn [length hrepeat]. apply hends_ret. now apply at_spent with prev.
  - destruct W as [[[Wxt Wx] [Wyt Wy]] W]. destruct P as [[Px Py] P]. cbn [map max_list fold_right fst snd] in *.
    fold (max_list (map (fun kv => Nat.max (need (fst kv)) (need (snd kv))) l0)) in L.
    pose proof (need_pos x). pose proof (need_pos y).
    assert (E' : (sep InList ++ vtext J x) ++ (sep InList ++ vtext J y) ++ (pairs_text l0 ++ [93]) = p ++ q).
    { rewrite <- E. unfold pairs_text. cbn [flat_map fst snd sep app]. repeat (rewrite <- !app_assoc; cbn [app]). reflexivity. }
    clear E. cbn [length hrepeat]. subst kt vt.
    assert (SpP : forall s, spent s (InList :: l) -> hends ((x <-- read_val (jsonR J) f (vtype x) ;; y <-- read_val (jsonR J) f (vtype y) ;; hret (x, y)) s) (InList :: l)).
    { intros s Sp. eapply hends_bind; [apply (spent_val f (vtype x) s InList l); [lia|assumption]|].
      intros a s' Sp'. eapply hends_bind; [apply (spent_val f (vtype y) s' InList l); [lia|assumption]|].
      intros. now apply hends_ret. }
    destruct (cut_app _ _ _ _ E') as [(p2 & -> & E2)|(q1 & E2 & Q1 & _)].
    + destruct (val_whole x Wx Px InList l f b prev p2 _ q eq_refl ltac:(lia) V S E2) as (b1 & pr1 & E3 & V1 & S1).
      { cbn; tauto. }
      cbn [after_value] in *. destruct (cut_app _ _ _ _ E2) as [(p3 & -> & E4)|(q1 & E4 & Q1 & _)].
      * destruct (val_whole y Wy Py InList l f b1 pr1 p3 _ q eq_refl ltac:(lia) V1 S1 E4) as (b2 & pr2 & E5 & V2 & S2).
        { unfold pairs_text. destruct l0; cbn; tauto. }
        cbn [after_value] in *.
        assert (EP : (x <-- read_val (jsonR J) f (vtype x) ;; y <-- read_val (jsonR J) f (vtype y) ;; hret (x, y)) (b, InList :: l) =
                     Ok (inl (canon x, canon y), (b2, InList :: l))).
        { rewrite (hbind_ok _ _ _ _ _ _ _ E3), (hbind_ok _ _ _ _ _ _ _ E5). reflexivity. }
        rewrite (hbind_ok _ _ _ _ _ _ _ EP).
        eapply hends_bind with (l := InList :: l); [eapply IH; [assumption..| |exact V2|exact S2|exact E4|exact Q]; lia|]. intros. now apply hends_ret.
      * eapply hends_bind with (l := InList :: l).
        { rewrite (hbind_ok _ _ _ _ _ _ _ E3).
          eapply hends_bind; [exact (cutv_ends y Gy Wy Py InList l f b1 pr1 p2 q1 eq_refl ltac:(lia) V1 S1 E4 Q1)|].
          intros. now apply hends_ret. }
        intros a s' Sp. eapply hends_bind with (l := InList :: l); [|intros; now apply hends_ret]. apply spent_repeat; [exact SpP|exact Sp].
    + eapply hends_bind with (l := InList :: l).
      { eapply hends_bind; [exact (cutv_ends x Gx Wx Px InList l f b prev p q1 eq_refl ltac:(lia) V S E2 Q1)|].
        cbn [after_value]. intros a s' Sp. eapply hends_bind; [apply (spent_val f (vtype y) s' InList l); [lia|assumption]|].
        intros. now apply hends_ret. }
      intros a s' Sp. eapply hends_bind with (l := InList :: l); [|intros; now apply hends_ret]. apply spent_repeat; [exact SpP|exact Sp].
Qed.

(** Behind the last field there is nothing, or an error has been met. *)
Definition fends {A} (o : outcome ((A + err) * jr)) (l : list ctx) : Prop :=
  hfails o \/ exists a s' c', o = Ok (inl a, s') /\ spent s' (c' :: l) /\ is_key c' = true.
Lemma fields_spent : forall f s c l, (1 <= f)%nat -> is_key c = true -> spent s (c :: l) ->
  fends (read_fields (jsonR J) f s) l.
Proof.
  intros [|f] s c l L K Sp; [lia|]. rewrite read_fields_S. destruct (FieldBegin_spent _ _ Sp) as [id E].
  change (rFieldBegin (jsonR J)) with (jReadFieldBegin J). rewrite (hbind_ok _ _ _ _ _ _ _ (lift_ok _ _ _ _ _ E)).
  change (STOP =? STOP) with true. cbv iota. right. exists [], s, c. auto.
Qed.
Lemma fields_cut : forall fs, Forall (fun f => cutv (snd f)) fs ->
  all (fun f => in_s 16 (fst f) /\ wf (snd f)) fs -> all (fun f => vtype (snd f) <> I16 /\ plain_val J k (snd f)) fs ->
  forall f c l b prev p q, (fold_right (fun f n => S (Nat.max (need (snd f)) n)) 1%nat fs <= f)%nat ->
  is_key c = true -> (c = ObjFirst -> prev = 123) -> view k b prev p [] -> SIT (b, c :: l) ->
  fields_text J c fs ++ [125] = p ++ q -> q <> [] ->
  fends (read_fields (jsonR J) f (b, c :: l)) l.
Proof.
  intros fs G. induction G as [|[id v] fs Gv G IH]; intros W P f c l b prev p q L K Hp V S E Q.
  - assert (p = []) as ->.
    { cbn in E. destruct p as [|x p]; [reflexivity|]. cbn [app] in E. injection E as _ E. symmetry in E.
      apply app_eq_nil in E. tauto. }
    apply fields_spent with c; [cbn in L; lia|assumption|now apply at_spent with prev].
  - destruct W as [[Wi Wv] W]. destruct P as [[P16 Pv] P]. cbn [fold_right fst snd] in *.
    destruct (Nat.eq_dec (length p) 0) as [P0|P0].
    { destruct p; [|discriminate]. apply fields_spent with c; [lia|assumption|now apply at_spent with prev]. }
    assert (Pn : p <> []) by (intros ->; now apply P0).
    set (rest1 := fields_text J NextKey fs ++ [125]).
    assert (E' : (sep c ++ quoted (FormatInt id) ++ [58; 123] ++ type_text (vtype v)) ++
                 ((sep NextValue ++ vtext J v) ++ 125 :: rest1) = p ++ q).
    { rewrite <- E. unfold rest1. cbn [fields_text flat_map tl app]. unfold field_text at 1. cbn [fst snd sep].
      repeat (rewrite <- !app_assoc; cbn [app]). do 7 f_equal.
      destruct fs; [reflexivity|]. cbn [fields_text flat_map tl app sep]. now rewrite <- app_assoc. }
    clear E. destruct f as [|f]; [lia|]. rewrite read_fields_S. change (rFieldBegin (jsonR J)) with (jReadFieldBegin J).
    change (rFieldEnd (jsonR J)) with ParseObjectEnd.
    destruct (cut_app _ _ _ _ E') as [(p2 & -> & E2)|(q1 & E2 & Q1 & _)].
    2:{ left. apply hfails_bind, lift_fails.
        exact (FieldBegin_cut c l id (vtype v) b prev p q1 K Wi Pn V S Hp E2 Q1). }
    assert (V' : view k b prev (sep c ++ quoted (FormatInt id) ++ [58; 123] ++ type_text (vtype v) ++ p2) []).
    { eapply view_eq; [exact V|]. now rewrite <- !app_assoc. }
    destruct (FieldBegin_view J k Kl c id (vtype v) b prev p2 [] l K Hp Wi (vtype_wire v) P16 V') as (b1 & E3 & V1).
    { eapply nows_prefix; [|exact E2]. reflexivity. }
    pose proof (ret_SI _ _ _ _ _ _ (j_field_ret True J) S E3) as S1.
    rewrite (hbind_ok _ _ _ _ _ _ _ (lift_ok _ _ _ _ _ E3)).
    replace (vtype v =? STOP) with false by (destruct v; reflexivity).
    destruct (cut_app _ _ _ _ E2) as [(p3 & -> & E4)|(q1 & E4 & Q1 & _)].
    2:{ left. eapply hends_bind_fails; [exact (cutv_ends v Gv Wv Pv NextValue (NextValue :: l) f b1 34 p2 q1 eq_refl ltac:(lia) V1 S1 E4 Q1)|].
        intros a s' Sp. apply hfails_bind. eapply end_spent. exact Sp. }
    destruct (val_whole v Wv Pv NextValue (NextValue :: l) f b1 34 p3 _ q eq_refl ltac:(lia) V1 S1 E4) as (b2 & pr2 & E5 & V2 & S2).
    { cbn; tauto. }
    rewrite (hbind_ok _ _ _ _ _ _ _ E5). cbn [after_value] in *.
    destruct p3 as [|x p3].
    { left. apply hfails_bind. eapply end_spent. eapply at_spent; eassumption. }
    cbn [app] in E4. injection E4 as <- E4.
    destruct (end_view is_key 125 NextValue NextKey k b2 pr2 p3 [] l eq_refl eq_refl ltac:(lia) V2) as (b3 & E6 & V3).
    { eapply nows_prefix; [|exact E4]. unfold rest1. destruct fs; reflexivity. }
    cbn [after_value] in E6. fold ParseObjectEnd in E6.
    pose proof (end_ret True is_key 125 eq_refl (b2, NextKey :: NextValue :: l) S2) as (e' & s' & E7 & S3 & _).
    fold ParseObjectEnd in E7. rewrite E6 in E7. injection E7 as <- <-.
    rewrite (hbind_ok _ _ _ _ _ _ _ (do_ok _ _ _ E6)).
    destruct (IH W P f NextKey l b3 125 p3 q ltac:(lia) eq_refl ltac:(discriminate) V3 S3 E4 Q) as [F|(a & s' & c' & E8 & Sp & K')].
    + left. now apply hfails_bind.
    + right. rewrite (hbind_ok _ _ _ _ _ _ _ E8). exists ((id, canon v) :: a), s', c'. split; [reflexivity|]. auto.
Qed.

Theorem cut_val : forall v, cutv v.
Proof.
  intros v. pattern v. apply tval_ind'; clear v; unfold cutv;
    [intros b0|intros z|intros z|intros z|intros z|intros z|intros s0|intros et l0 F|intros et l0 F|intros kt vt l0 F|intros fs F];
    intros W P c l f b prev p q K L V S E Q; (destruct f as [|f]; [cbn [need] in L; lia|]); cbn [sealed vtype vtext plain_val need] in *;
    cbn [read_val];
    repeat match goal with |- context [if ?x =? ?y then _ else _] =>
      let r := eval vm_compute in (x =? y) in change (x =? y) with r; cbv iota end.
  - eapply hends_bind with (l := after_value c :: l); [apply lift_ends; eapply ReadBool_cut; eassumption|]. intros. now apply hends_ret.
  - eapply hends_bind with (l := after_value c :: l); [apply lift_ends, rconv_ends|intros; now apply hends_ret].
    eapply (ReadI64_cut c l z); [cbn in W; unfold in_u, in_s in *; lia|exact V|exact S|unfold key_text; rewrite K; exact E|exact Q].
  - eapply hends_bind with (l := after_value c :: l); [apply lift_ends, rconv_ends|intros; now apply hends_ret].
    eapply (ReadI64_cut c l z); [apply (in_s_64 16); [lia|exact W]|exact V|exact S|unfold key_text; rewrite K; exact E|exact Q].
  - eapply hends_bind with (l := after_value c :: l); [apply lift_ends, rconv_ends|intros; now apply hends_ret].
    eapply (ReadI64_cut c l z); [apply (in_s_64 32); [lia|exact W]|exact V|exact S|unfold key_text; rewrite K; exact E|exact Q].
  - eapply hends_bind with (l := after_value c :: l); [apply lift_ends|intros; now apply hends_ret].
    eapply (ReadI64_cut c l z); [exact W|exact V|exact S|unfold key_text; rewrite K; exact E|exact Q].
  - eapply hends_bind with (l := after_value c :: l); [apply lift_ends|intros; now apply hends_ret].
    eapply (ReadDouble_cut c l z); eassumption.
  - apply hfails_bind, lift_fails. destruct P as [P1 P2]. eapply ReadString_cut; eassumption.
  - destruct W as (Wt & Wl & Wa). set (items := commas (map (vtext J) l0)) in *.
    assert (E' : (sep c ++ [91] ++ FormatInt et ++ [44] ++ FormatInt (Z.of_nat (length l0))) ++ (items ++ [93]) = p ++ q).
    { rewrite <- E. repeat (rewrite <- !app_assoc; cbn [app]). reflexivity. }
    clear E. destruct (cut_app _ _ _ _ E') as [(p2 & -> & E2)|(q1 & E2 & Q1 & _)].
    + destruct (ElemList_view J k Kl c et (Z.of_nat (length l0)) b prev p2 [] l) as (b1 & pr1 & E1 & V1).
      { now apply wire_u8. }
      { unfold in_s. lia. }
      { eapply view_eq; [exact V|]. now rewrite <- !app_assoc. }
      { eapply delim_prefix; [|exact E2]. unfold items, commas. destruct l0; cbn; tauto. }
      pose proof (ret_SI _ _ _ _ _ _ (elem_list_ret True J) S E1) as S1.
      change (rListBegin (jsonR J)) with (ParseElemListBegin J). rewrite (hbind_ok _ _ _ _ _ _ _ (lift_ok _ _ _ _ _ E1)).
      rewrite Nat2Z.id. eapply hends_bind_fails; [eapply (items_cut et l0 F Wa P f); [lia|exact V1|exact S1|exact E2|exact Q]|].
      intros a s' Sp. apply hfails_bind. eapply end_spent. exact Sp.
    + destruct (ElemList_cut c l et (Z.of_nat (length l0)) b prev p q1 (wire_u8 _ Wt) ltac:(unfold in_s; lia) V S E2 Q1) as [F0|(N & [et' n'] & s' & E1 & Sp)].
      { now apply hfails_bind, lift_fails. }
      change (rListBegin (jsonR J)) with (ParseElemListBegin J). rewrite (hbind_ok _ _ _ _ _ _ _ (lift_ok _ _ _ _ _ E1)).
      assert (Lf : (1 <= f)%nat).
      { destruct l0 as [|v0 l0]; [cbn in N; lia|]. cbn [map max_list fold_right] in L. pose proof (need_pos v0). lia. }
      eapply hends_bind_fails; [apply spent_repeat; [|exact Sp]; intros s2 Sp2; apply (spent_val f et' s2 InList (c :: l)); assumption|].
      intros a s2 Sp2. apply hfails_bind. eapply end_spent. exact Sp2.
  - destruct W as (Wt & Wl & Wa). set (items := commas (map (vtext J) l0)) in *.
    assert (E' : (sep c ++ [91] ++ FormatInt et ++ [44] ++ FormatInt (Z.of_nat (length l0))) ++ (items ++ [93]) = p ++ q).
    { rewrite <- E. repeat (rewrite <- !app_assoc; cbn [app]). reflexivity. }
    clear E. destruct (cut_app _ _ _ _ E') as [(p2 & -> & E2)|(q1 & E2 & Q1 & _)].
    + destruct (ElemList_view J k Kl c et (Z.of_nat (length l0)) b prev p2 [] l) as (b1 & pr1 & E1 & V1).
      { now apply wire_u8. }
      { unfold in_s. lia. }
      { eapply view_eq; [exact V|]. now rewrite <- !app_assoc. }
      { eapply delim_prefix; [|exact E2]. unfold items, commas. destruct l0; cbn; tauto. }
      pose proof (ret_SI _ _ _ _ _ _ (elem_list_ret True J) S E1) as S1.
      change (rSetBegin (jsonR J)) with (ParseElemListBegin J). rewrite (hbind_ok _ _ _ _ _ _ _ (lift_ok _ _ _ _ _ E1)).
      rewrite Nat2Z.id. eapply hends_bind_fails; [eapply (items_cut et l0 F Wa P f); [lia|exact V1|exact S1|exact E2|exact Q]|].
      intros a s' Sp. apply hfails_bind. eapply end_spent. exact Sp.
    + destruct (ElemList_cut c l et (Z.of_nat (length l0)) b prev p q1 (wire_u8 _ Wt) ltac:(unfold in_s; lia) V S E2 Q1) as [F0|(N & [et' n'] & s' & E1 & Sp)].
      { now apply hfails_bind, lift_fails. }
      change (rSetBegin (jsonR J)) with (ParseElemListBegin J). rewrite (hbind_ok _ _ _ _ _ _ _ (lift_ok _ _ _ _ _ E1)).
      assert (Lf : (1 <= f)%nat).
      { destruct l0 as [|v0 l0]; [cbn in N; lia|]. cbn [map max_list fold_right] in L. pose proof (need_pos v0). lia. }
      eapply hends_bind_fails; [apply spent_repeat; [|exact Sp]; intros s2 Sp2; apply (spent_val f et' s2 InList (c :: l)); assumption|].
      intros a s2 Sp2. apply hfails_bind. eapply end_spent. exact Sp2.
  - destruct W as (Wk & Wv & Wl & Wa). destruct P as (Pk & Pv & P). fold (pairs_text l0) in E.
    assert (E' : (sep c ++ [91] ++ type_text kt ++ [44] ++ type_text vt ++ [44] ++ FormatInt (Z.of_nat (length l0))) ++
                 (pairs_text l0 ++ [93]) = p ++ q).
    { rewrite <- E. repeat (rewrite <- !app_assoc; cbn [app]). reflexivity. }
    clear E. destruct (cut_app _ _ _ _ E') as [(p2 & -> & E2)|(q1 & E2 & Q1 & _)].
    + destruct (MapBegin_view J k Kl c kt vt (Z.of_nat (length l0)) b prev p2 [] l Wk Wv Pk Pv) as (b1 & pr1 & E1 & V1).
      { unfold in_s. lia. }
      { eapply view_eq; [exact V|]. now rewrite <- !app_assoc. }
      { eapply delim_prefix; [|exact E2]. unfold pairs_text. destruct l0; cbn; tauto. }
      pose proof (ret_SI _ _ _ _ _ _ (j_map_ret True J) S E1) as S1.
      change (rMapBegin (jsonR J)) with (jReadMapBegin J). rewrite (hbind_ok _ _ _ _ _ _ _ (lift_ok _ _ _ _ _ E1)).
      rewrite Nat2Z.id. eapply hends_bind_fails; [eapply (pairs_cut kt vt l0 F Wa P f); [lia|exact V1|exact S1|exact E2|exact Q]|].
      intros a s' Sp. apply hfails_bind. eapply end_spent. exact Sp.
    + destruct (MapBegin_cut c l kt vt (Z.of_nat (length l0)) b prev p q1 ltac:(unfold in_s; lia) V S E2 Q1) as [F0|(N & [[kt' vt'] n'] & s' & E1 & Sp)].
      { now apply hfails_bind, lift_fails. }
      change (rMapBegin (jsonR J)) with (jReadMapBegin J). rewrite (hbind_ok _ _ _ _ _ _ _ (lift_ok _ _ _ _ _ E1)).
      assert (Lf : (1 <= f)%nat).
      { destruct l0 as [|[v0 w0] l0]; [cbn in N; lia|]. cbn [map max_list fold_right fst snd] in L. pose proof (need_pos v0). lia. }
      eapply hends_bind_fails; [apply spent_repeat; [|exact Sp]|].
      { intros s2 Sp2. eapply hends_bind; [apply (spent_val f kt' s2 InList (c :: l)); assumption|].
        intros a s3 Sp3. eapply hends_bind; [apply (spent_val f vt' s3 InList (c :: l)); assumption|]. intros. now apply hends_ret. }
      intros a s2 Sp2. apply hfails_bind. eapply end_spent. exact Sp2.
  - change (rStructBegin (jsonR J)) with ReadStructBegin. change (rStructEnd (jsonR J)) with ParseObjectEnd.
    assert (E' : sep c ++ 123 :: (fields_text J ObjFirst fs ++ [125]) = p ++ q).
    { rewrite <- E. cbn [app]. unfold fields_text, field_text. destruct fs; reflexivity. }
    clear E. destruct (ObjectStart_cut c l _ b prev p q V S E' Q) as [(a & e & s' & F0)|(b1 & p1 & E1 & V1 & T1 & S1)].
    { apply hfails_bind, lift_fails. unfold ReadStructBegin. rewrite F0. cbn [obind]. eexists _, _, _. reflexivity. }
    assert (E2 : ReadStructBegin (b, c :: l) = Ok ([], None, (b1, ObjFirst :: c :: l))).
    { unfold ReadStructBegin. now rewrite E1. }
    rewrite (hbind_ok _ _ _ _ _ _ _ (lift_ok _ _ _ _ _ E2)).
    destruct (fields_cut fs F W P f ObjFirst (c :: l) b1 123 p1 q ltac:(lia) eq_refl ltac:(auto) V1 S1 T1 Q) as [F0|(a & s' & c' & E3 & Sp & K')].
    + now apply hfails_bind.
    + rewrite (hbind_ok _ _ _ _ _ _ _ E3). apply hfails_bind. eapply end_spent. exact Sp.
Qed.
End Cut.
