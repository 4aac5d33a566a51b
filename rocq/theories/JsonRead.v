(** The JSON readers on known text. *)
From Coq Require Import ZArith List Bool Lia String Ascii.
From Coq Require Import ZifyBool ZifyNat.
From Verif Require Import Base Arith Errors Transport TransportProofs Proto Values Strconv JsonText JsonTextProofs
  F64 GoVal Names BufIO BufRead BufReadProofs Json JsonSpec JsonWrite.
Import ListNotations.
Local Open Scope list_scope.
Local Notation length := List.length.
Open Scope Z_scope.

(** The text does not start with white space; it is empty or starts with a delimiter. *)
Definition nows (t : bytes) : Prop := match t with c :: _ => is_ws c = false | [] => True end.
Definition delim (t : bytes) : Prop := match t with c :: _ => In c [44; 58; 93; 125] | [] => True end.
Lemma delim_nows : forall t, delim t -> nows t.
Proof.
  intros [|c t] D; [exact I|]. cbn in *. repeat (destruct D as [<-|D]; [reflexivity|]). contradiction.
Qed.

(** ** White space *)
Lemma skip_same : forall k b prev s rest, view k b prev s rest -> nows (s ++ rest) ->
  view k (skip_ws b) prev s rest /\ b_un (skip_ws b) = b_un b.
Proof.
  intros k b prev s rest V N.
  assert (W : ws_prefix (b_un b) = O).
  { destruct (b_un b) as [|c u] eqn:U; [reflexivity|]. pose proof (v_con _ _ _ _ _ V) as C.
    rewrite U in C. rewrite <- C in N. cbn in N. cbn [ws_prefix]. now rewrite N. }
  unfold skip_ws. rewrite W. split; [|reflexivity].
  apply (advance_view k b prev [] s rest V). cbn. lia.
Qed.

Lemma un_head : forall k b prev c s rest, view k b prev (c :: s) rest -> b_un b <> [] ->
  exists u, b_un b = c :: u.
Proof.
  intros k b prev c s rest V N. pose proof (v_con _ _ _ _ _ V) as C.
  destruct (b_un b) as [|x u]; [congruence|]. cbn in C. injection C as <- _. now exists u.
Qed.
(** At a tight position something is buffered. *)
Lemma tight_un : forall k b prev c s rest, k <> Loose -> view k b prev (c :: s) rest -> tight prev c = true ->
  exists u, b_un b = c :: u.
Proof.
  intros k b prev c s rest Kl V T. eapply un_head; [eassumption|]. intros U.
  pose proof (v_safe _ _ _ _ _ V Kl) as Sf. rewrite U in Sf. cbn [length] in Sf.
  destruct (b_rt b) as [|[x e] r]; cbn [ends] in Sf; inversion Sf as [|? ? H _]; subst;
    unfold tpos in H; cbn [nth_error nth] in H; cbv zeta in H; rewrite T in H; discriminate.
Qed.
Lemma tight_comma : forall p, tight p 44 = true.
Proof. reflexivity. Qed.
Lemma tight_colon : forall p, tight p 58 = true.
Proof. reflexivity. Qed.
Lemma tight_brace : forall n, tight 123 n = true.
Proof. intros n. unfold tight. now rewrite !orb_true_r. Qed.

(** ** ParsePreValue and ParsePostValue *)
Lemma eat_view : forall k b prev c s rest, view k b prev (c :: s) rest -> b_un b <> [] -> nows (s ++ rest) ->
  view k (skip_ws (b_advance 1 b)) c s rest.
Proof.
  intros k b prev c s rest V N W. apply skip_same; [|assumption].
  apply (advance_view k b prev [c] s rest V). destruct (b_un b); [congruence|cbn; lia].
Qed.

(** The separator before a value is seen only if it is buffered. *)
Definition ready (k : mode) (b : breader) (c : ctx) : Prop := k <> Loose \/ sep c = [] \/ b_un b <> [].
Lemma ready_un : forall k b prev c x s rest, ready k b c -> sep c = [x] -> view k b prev (x :: s) rest ->
  (forall p, tight p x = true) -> exists u, b_un b = x :: u.
Proof.
  intros k b prev c x s rest [R|[R|R]] E V T; [eapply tight_un; eauto|congruence|eapply un_head; eauto].
Qed.

Lemma pre_view : forall k b prev c l s rest, view k b prev (sep c ++ s) rest ->
  nows (s ++ rest) -> ready k b c ->
  exists b' prev', ParsePreValue (b, c :: l) = Ok (None, (b', c :: l)) /\ view k b' prev' s rest /\
                   prev' = last (sep c) prev.
Proof.
  intros k b prev c l s rest V N Rd.
  assert (N0 : nows ((sep c ++ s) ++ rest)) by (destruct c; cbn; try reflexivity; assumption).
  destruct (skip_same _ _ _ _ _ V N0) as [V1 U1]. unfold ParsePreValue.
  assert (Rd1 : ready k (skip_ws b) c) by (unfold ready; rewrite U1; exact Rd). clear Rd.
  set (b1 := skip_ws b) in *. clearbody b1. cbv zeta.
  destruct c; cbn [sep app] in *;
    try (exists b1, prev; split; [destruct (b_un b1); reflexivity|split; [assumption|reflexivity]]).
  - destruct (ready_un _ _ _ _ _ _ _ Rd1 eq_refl V1 tight_comma) as [u U]. rewrite U. cbn.
    eexists _, 44; split; [reflexivity|]. split; [|reflexivity]. eapply eat_view; [eassumption|congruence|assumption].
  - destruct (ready_un _ _ _ _ _ _ _ Rd1 eq_refl V1 tight_comma) as [u U]. rewrite U. cbn.
    eexists _, 44; split; [reflexivity|]. split; [|reflexivity]. eapply eat_view; [eassumption|congruence|assumption].
  - destruct (ready_un _ _ _ _ _ _ _ Rd1 eq_refl V1 tight_colon) as [u U]. rewrite U. cbn.
    eexists _, 58; split; [reflexivity|]. split; [|reflexivity]. eapply eat_view; [eassumption|congruence|assumption].
Qed.

Lemma post_view : forall A (a : A) k b prev c l s rest, view k b prev s rest -> nows (s ++ rest) ->
  exists b', post a (b, c :: l) = Ok (a, None, (b', after_value c :: l)) /\ view k b' prev s rest.
Proof.
  intros A a k b prev c l s rest V N. destruct (skip_same _ _ _ _ _ V N) as [V1 U1].
  eexists. split; [reflexivity|assumption].
Qed.

(** ** readIfNull *)
Lemma not_null : forall k b prev s rest, view k b prev s rest -> nows (s ++ rest) -> hd 0 (s ++ rest) <> 110 ->
  exists b', readIfNull b = (false, b') /\ view k b' prev s rest.
Proof.
  intros k b prev s rest V N H. destruct (skip_same _ _ _ _ _ V N) as [V1 U1]. unfold readIfNull.
  set (b1 := skip_ws b) in *. clearbody b1. cbv zeta.
  exists b1. split; [|assumption]. destruct (b_un b1) as [|x u] eqn:U; [reflexivity|].
  pose proof (v_con _ _ _ _ _ V1) as C. rewrite U in C. rewrite <- C in H. cbn in H.
  now destruct (Z.eqb_spec x 110).
Qed.

(** ** Numbers *)

(** The flags of readNumeric over a text without quotes and words. *)
Fixpoint num_run (t : bytes) (pt sg ex : bool) : option (bool * bool * bool) :=
  match t with
  | [] => Some (pt, sg, ex)
  | c :: t =>
    if is_digit c then num_run t pt false ex
    else if c =? 46 then if pt || ex then None else num_run t true false ex
    else if (c =? 101) || (c =? 69) then if ex then None else num_run t pt true true
    else if (c =? 45) || (c =? 43) then if sg then num_run t pt false ex else None
    else None
  end.
Lemma num_run_app : forall a b pt sg ex,
  num_run (a ++ b) pt sg ex =
  match num_run a pt sg ex with Some (p, s, e) => num_run b p s e | None => None end.
Proof.
  induction a as [|c a IH]; intros b pt sg ex; [reflexivity|]. cbn [app num_run].
  repeat match goal with |- context [if ?x then _ else _] => destruct x end; auto.
Qed.
Lemma num_run_digits : forall d, Forall (fun c => 48 <= c <= 57) d -> forall pt sg ex,
  num_run d pt sg ex = Some (pt, match d with [] => sg | _ => false end, ex).
Proof.
  intros d F. induction F as [|c d Hc F IH]; intros; [reflexivity|]. cbn [num_run].
  replace (is_digit c) with true by (unfold is_digit; lia). rewrite IH. now destruct d.
Qed.
Lemma int_digits : forall i, int_part i -> digits i.
Proof.
  intros i [->|[D _]]; [|assumption]. split; [discriminate|]. repeat constructor; lia.
Qed.
Definition numeric (t : bytes) : Prop :=
  t <> [] /\ hd 0 t <> 110 /\ is_ws (hd 0 t) = false /\ exists x, num_run t false true false = Some x.
Lemma number_numeric : forall t, number t -> numeric t.
Proof.
  intros t (m & i & f & e & Hm & Hi & Hf & He & ->).
  pose proof (int_digits i Hi) as [Di Fi].
  destruct i as [|i0 i]; [congruence|]. inversion Fi as [|? ? Hi0 _]; subst.
  assert (R : forall sg, exists x, num_run ((i0 :: i) ++ f ++ e) false sg false = Some x).
  { intros sg. rewrite num_run_app, num_run_digits by assumption.
    assert (E : forall pt, exists x, num_run e pt false false = Some x).
    { intros pt. destruct He as [->|(e0 & sg' & d & He0 & Hs & [Dd Fd] & ->)]; [eexists; reflexivity|].
      cbn [num_run]. assert (X : is_digit e0 = false /\ (e0 =? 46) = false /\ ((e0 =? 101) || (e0 =? 69)) = true)
        by (unfold is_digit; lia). destruct X as (-> & -> & ->).
      rewrite num_run_app. destruct Hs as [->|[->| ->]]; cbn [num_run is_digit Z.leb Z.eqb andb orb];
        cbn; rewrite num_run_digits by assumption; eexists; reflexivity. }
    rewrite num_run_app. destruct Hf as [->|(d & [Dd Fd] & ->)]; [apply E|].
    cbn [num_run]. cbn. rewrite num_run_digits by assumption. destruct d; [congruence|]. apply E. }
  unfold numeric. destruct Hm as [->| ->].
  - rewrite app_nil_l. split; [discriminate|]. cbn [hd app].
    split; [lia|]. split; [unfold is_ws; lia|]. apply R.
  - split; [discriminate|]. cbn [hd app]. split; [lia|]. split; [reflexivity|].
    cbn [num_run]. cbn. apply (R false).
Qed.
Lemma decimal_numeric : forall t z, decimal t z -> numeric t.
Proof.
  intros t z H. destruct H as [d N F|d N F|d N F]; (split; [congruence || discriminate|]).
  - destruct d as [|c d]; [congruence|]. inversion F; subst. cbn [hd]. split; [lia|].
    split; [unfold is_ws; lia|]. rewrite num_run_digits by assumption. eexists; reflexivity.
  - cbn [hd]. split; [lia|]. split; [reflexivity|]. cbn [num_run]. cbn. rewrite num_run_digits by assumption.
    eexists; reflexivity.
  - cbn [hd]. split; [lia|]. split; [reflexivity|]. cbn [num_run]. cbn. rewrite num_run_digits by assumption.
    eexists; reflexivity.
Qed.
Lemma numeric_format : forall z, in_s 64 z -> numeric (FormatInt z).
Proof. intros z H. eapply decimal_numeric, FormatInt_decimal, H. Qed.
Lemma num_run_word : forall t x pt sg ex c, num_run t pt sg ex = Some x -> In c t ->
  c <> 110 /\ c <> 78 /\ c <> 34.
Proof.
  induction t as [|y t IH]; intros x pt sg ex c H I; [destruct I|]. cbn [num_run] in H.
  destruct (is_digit y) eqn:D.
  { destruct I as [<-|I]; [unfold is_digit in D; lia|eapply IH; eassumption]. }
  destruct (Z.eqb_spec y 46); [destruct (pt || ex); [discriminate|];
    destruct I as [<-|I]; [lia|eapply IH; eassumption]|].
  destruct ((y =? 101) || (y =? 69)) eqn:E1; [destruct ex; [discriminate|];
    destruct I as [<-|I]; [lia|eapply IH; eassumption]|].
  destruct ((y =? 45) || (y =? 43)) eqn:E2; [|discriminate]. destruct sg; [|discriminate].
  destruct I as [<-|I]; [lia|eapply IH; eassumption].
Qed.

Lemma beq_eq : forall a b, beq a b = true <-> a = b.
Proof. intros a b. unfold beq. destruct (list_eq_dec Z.eq_dec a b); split; congruence. Qed.

Section Read.
Variable J : jenv.

Lemma beq_in : forall (t w : bytes) c, In c w -> ~ In c t -> beq t w = false.
Proof.
  intros t w c I N. destruct (beq t w) eqn:E; [|reflexivity]. apply beq_eq in E. subst. contradiction.
Qed.
Definition parsed (t : bytes) : num := (fst (ParseInt t 64), fst (x_parse_float (j_ext J) t)).
Lemma numeric_value : forall t, numeric t -> NewNumericFromJSONString J t = parsed t.
Proof.
  intros t (_ & _ & _ & x & R). unfold NewNumericFromJSONString.
  assert (W : forall c, In c t -> c <> 110 /\ c <> 78 /\ c <> 34) by (intros; eapply num_run_word; eassumption).
  rewrite (beq_in t (lit "Infinity") 110) by ((cbn; tauto) || (intros I; apply W in I; lia)).
  rewrite (beq_in t (lit "-Infinity") 110) by ((cbn; tauto) || (intros I; apply W in I; lia)).
  rewrite (beq_in t (lit "NaN") 78) by ((cbn; tauto) || (intros I; apply W in I; lia)).
  reflexivity.
Qed.

Lemma num_steps : forall t k b prev s rest f buf pt sg ex pt' sg' ex' q,
  view k b prev (t ++ s) rest -> num_run t pt sg ex = Some (pt', sg', ex') ->
  exists b' prev',
    numeric_loop J (length t + f) buf pt sg ex q b = numeric_loop J f (buf ++ t) pt' sg' ex' q b' /\
    view k b' prev' s rest.
Proof.
  induction t as [|c t IH]; intros k b prev s rest f buf pt sg ex pt' sg' ex' q V R.
  - cbn in R. injection R as <- <- <-. exists b, prev. rewrite app_nil_r. auto.
  - cbn [app] in V. destruct (byte_view _ _ _ _ _ _ V) as (b1 & B & V1).
    cbn [length Nat.add numeric_loop]. rewrite B. cbn [num_run] in R.
    replace (buf ++ c :: t) with ((buf ++ [c]) ++ t) by now rewrite <- app_assoc.
    destruct (is_digit c); [eapply IH; eassumption|].
    destruct (c =? 46); [destruct pt; [discriminate|]; destruct ex; [discriminate|]; eapply IH; eassumption|].
    destruct ((c =? 101) || (c =? 69)); [destruct ex; [discriminate|]; eapply IH; eassumption|].
    destruct ((c =? 45) || (c =? 43)); [|discriminate]. destruct sg; [|discriminate]. eapply IH; eassumption.
Qed.

Lemma num_finish : forall k b prev s rest f buf pt sg ex q, view k b prev s rest -> delim (s ++ rest) -> buf <> [] ->
  exists b', numeric_loop J (S f) buf pt sg ex q b = Ok ((NewNumericFromJSONString J buf, None), b') /\
             view k b' prev s rest.
Proof.
  intros k b prev s rest f buf pt sg ex q V D N. cbn [numeric_loop].
  destruct (s ++ rest) as [|c t] eqn:E.
  - apply app_eq_nil in E. destruct E; subst. destruct (byte_eof _ _ _ V) as (b' & B & V').
    rewrite B. exists b'. split; [|assumption]. destruct buf; [congruence|reflexivity].
  - destruct (byte_unread _ _ _ _ _ _ _ V E) as (b' & B & V'). rewrite B.
    exists (b_unread c b'). split; [|assumption]. cbn in D.
    assert (X : is_digit c = false /\ (c =? 46) = false /\ ((c =? 101) || (c =? 69)) = false /\
                ((c =? 45) || (c =? 43)) = false /\ is_term c = true).
    { unfold is_digit, is_term, is_ws. repeat (destruct D as [<-|D]; [repeat split|]). contradiction. }
    destruct X as (-> & -> & -> & -> & ->). destruct buf; [congruence|reflexivity].
Qed.

Lemma view_fuel : forall k b prev s rest, view k b prev s rest -> str_fuel b = S (length (s ++ rest)).
Proof. intros k b prev s rest V. unfold str_fuel. f_equal. f_equal. exact (v_con _ _ _ _ _ V). Qed.

(** A number, with or without quotes around it. *)
Lemma readNumeric_view : forall (q : bool) t k b prev s rest,
  view k b prev ((if q then quoted t else t) ++ s) rest -> numeric t -> delim (s ++ rest) ->
  exists b' prev', readNumeric J b = Ok ((parsed t, None), b') /\ view k b' prev' s rest.
Proof.
  intros q t k b prev s rest V Nu D. pose proof Nu as (Nt & N1 & N2 & [[p1 s1] e1] & R).
  assert (Hd : nows (((if q then quoted t else t) ++ s) ++ rest) /\
               hd 0 (((if q then quoted t else t) ++ s) ++ rest) <> 110).
  { destruct q; [cbn; split; [reflexivity|lia]|]. destruct t as [|c t]; [congruence|]. cbn in *. auto. }
  unfold readNumeric. destruct (not_null _ _ _ _ _ V (proj1 Hd) (proj2 Hd)) as (b1 & -> & V1).
  rewrite (view_fuel _ _ _ _ _ V1). rewrite <- (numeric_value t Nu).
  destruct q.
  - unfold quoted in *. cbn [app] in V1.
    destruct (byte_view _ _ _ _ _ _ V1) as (b2 & B2 & V2).
    cbn [numeric_loop]. rewrite B2.
    cbn [is_digit Z.leb Z.compare Pos.compare Pos.compare_cont andb].
    change (is_digit 34) with false. cbn [Z.eqb Pos.eqb orb]. change (is_term 34) with false. cbn [Z.eqb Pos.eqb].
    rewrite <- app_assoc in V2. cbn [app] in V2.
    match goal with |- context [numeric_loop J ?f] => replace f with (length t + S (S (length (s ++ rest))))%nat end.
    2:{ cbn [app length]. rewrite !app_length. cbn [length]. lia. }
    destruct (num_steps t _ _ _ _ _ (S (S (length (s ++ rest)))) [] _ _ _ _ _ _ true V2 R) as (b3 & pr3 & -> & V3).
    destruct (byte_view _ _ _ _ _ _ V3) as (b4 & B4 & V4).
    destruct (num_finish k b4 _ s rest (length (s ++ rest)) t p1 s1 e1 true V4 D Nt) as (b5 & E5 & V5).
    remember (S (length (s ++ rest))) as n eqn:En.
    cbn [numeric_loop]. rewrite B4. change (is_digit 34) with false. cbn [Z.eqb Pos.eqb orb].
    change (is_term 34) with false. cbn [Z.eqb Pos.eqb app]. rewrite E5.
    eauto.
  - match goal with |- context [numeric_loop J ?f] => replace f with (length t + S (length (s ++ rest)))%nat end.
    2:{ rewrite !app_length. lia. }
    destruct (num_steps t _ _ _ _ _ (S (length (s ++ rest))) [] _ _ _ _ _ _ false V1 R) as (b3 & pr3 & -> & V3).
    cbn [app].
    destruct (num_finish k b3 _ s rest (length (s ++ rest)) t p1 s1 e1 false V3 D Nt) as (b5 & -> & V5).
    eauto.
Qed.

Lemma firstn_hd : forall (t : bytes) w n, hd 0 t <> hd 0 w -> (0 < n)%nat -> w <> [] -> beq (firstn n t) w = false.
Proof.
  intros t w n H N W. destruct (beq (firstn n t) w) eqn:E; [|reflexivity]. apply beq_eq in E.
  destruct n; [lia|]. destruct t as [|c t]; cbn in E; subst w; [congruence|]. cbn in H. congruence.
Qed.

Lemma ParseNum_gen : forall pick c t v k b prev s rest l,
  ready k b c -> view k b prev (sep c ++ t ++ s) rest -> nows (t ++ s ++ rest) -> hd 0 (t ++ s ++ rest) <> 110 -> nows (s ++ rest) ->
  (forall b0 prev0, view k b0 prev0 (t ++ s) rest ->
     exists b1 prev1, readNumeric J b0 = Ok ((v, None), b1) /\ view k b1 prev1 s rest) ->
  exists b' prev', ParseNum J pick (b, c :: l) = Ok (pick v, None, (b', after_value c :: l)) /\ view k b' prev' s rest.
Proof.
  intros pick c t v k b prev s rest l Rd V N1 H N2 R.
  rewrite app_assoc in N1, H.
  destruct (pre_view k b prev c l (t ++ s) rest V N1 Rd) as (b1 & p1 & E1 & V1 & _).
  unfold ParseNum, pre. rewrite E1. cbn [obind].
  destruct (peek_view 4 _ _ _ _ _ V1) as (b2 & -> & V2 & _); [lia|].
  rewrite firstn_hd by (assumption || (try lia; discriminate)).
  destruct (R _ _ V2) as (b3 & p3 & -> & V3). cbn [obind].
  destruct (post_view Z (pick v) k b3 p3 c l s rest V3 N2) as (b4 & -> & V4).
  eauto.
Qed.

Lemma ParseNum_view : forall pick c (q : bool) t k b prev s rest l,
  ready k b c -> view k b prev (sep c ++ (if q then quoted t else t) ++ s) rest -> numeric t -> delim (s ++ rest) ->
  exists b' prev', ParseNum J pick (b, c :: l) = Ok (pick (parsed t), None, (b', after_value c :: l)) /\
                   view k b' prev' s rest.
Proof.
  intros pick c q t k b prev s rest l Rd V Nu D. pose proof Nu as (Nt & N1 & N2 & _).
  apply (ParseNum_gen pick c (if q then quoted t else t)) with prev; [assumption|assumption|..].
  - destruct q; [reflexivity|]. destruct t; [congruence|]. exact N2.
  - destruct q; [cbn; lia|]. destruct t; [congruence|]. exact N1.
  - now apply delim_nows.
  - intros. eapply readNumeric_view; eassumption.
Qed.

(** NaN and infinities *)
Fixpoint pairs (p : Z) (w : bytes) : bool :=
  match w with [] => true | n :: w' => tight p n && pairs n w' end.
Lemma tight_run : forall w k b prev s rest, k <> Loose -> view k b prev (w ++ s) rest -> pairs prev w = true ->
  (length w <= length (b_un b))%nat.
Proof.
  intros w k b prev s rest Kl V P.
  pose proof (v_safe _ _ _ _ _ V Kl) as Sf.
  assert (H : tpos k prev (w ++ s) (length (b_un b)) = false).
  { destruct (b_rt b) as [|[x e] r]; cbn [ends] in Sf; now inversion Sf. }
  clear V Sf. revert H. generalize (length (b_un b)). clear b.
  revert prev P. induction w as [|c w IH]; intros prev P n H; [cbn; lia|].
  cbn [pairs] in P. apply andb_true_iff in P. destruct P as [P1 P2].
  destruct n as [|n].
  - unfold tpos in H. cbn [app nth_error nth] in H. cbv zeta in H. rewrite P1 in H. discriminate.
  - cbn [length]. apply le_n_S, (IH c P2 n). unfold tpos in *. cbn [app nth_error nth] in *. exact H.
Qed.

Lemma read_word : forall got word v k b prev w s rest, k <> Loose ->
  view k b prev (w ++ 34 :: s) rest -> word = got ++ w -> w <> [] -> pairs prev (w ++ [34]) = true ->
  exists b', read_literal got word v true b = ((v, None), b') /\ view k b' 34 s rest.
Proof.
  intros got word v k b prev w s rest Kl V -> N P. unfold read_literal.
  assert (Lu : (length (w ++ [34%Z]) <= length (b_un b))%nat).
  { eapply (tight_run (w ++ [34])); [exact Kl| |exact P]. rewrite <- app_assoc. exact V. }
  rewrite app_length. replace (length got + length w - length got)%nat with (length w) by lia.
  rewrite app_length in Lu. cbn [length] in Lu.
  unfold b_read. destruct (b_un b) as [|x u] eqn:U; [cbn in Lu; lia|]. rewrite <- U in *.
  pose proof (advance_view k b prev w (34 :: s) rest V) as V1.
  assert (Fw : firstn (length w) (b_un b) = w).
  { rewrite (firstn_pre _ _ (b_un b) (content (b_rt b))) by lia. rewrite (v_con _ _ _ _ _ V), <- app_assoc.
    rewrite firstn_app, firstn_all, Nat.sub_diag. cbn. apply app_nil_r. }
  rewrite Fw.
  replace (pad (length w) w) with w.
  2:{ unfold pad. rewrite Nat.sub_diag. cbn. now rewrite app_nil_r. }
  rewrite (proj2 (beq_eq _ _) eq_refl).
  specialize (V1 ltac:(lia)).
  destruct (un_head k _ _ _ _ _ V1) as [u' U'].
  { intros Z0. cbn [b_advance b_un] in Z0. apply (f_equal (@length Z)) in Z0. rewrite skipn_length in Z0. cbn in Z0. lia. }
  eexists. split; [reflexivity|]. unfold readQuoteIfNext. rewrite U'.
  apply (advance_view k _ (last w prev) [34] s rest V1). rewrite U'. cbn. lia.
Qed.

Definition word_text (v : Z) : bytes :=
  quoted (if v =? GO_NAN then lit "NaN" else if v =? INF then lit "Infinity" else lit "-Infinity").
Lemma readNumeric_word : forall v k b prev s rest, k <> Loose -> v = GO_NAN \/ v = INF \/ v = NEG_INF ->
  view k b prev (word_text v ++ s) rest ->
  exists b' prev', readNumeric J b = Ok ((0, v, None), b') /\ view k b' prev' s rest.
Proof.
  intros v k b prev s rest Kl Hv V. unfold readNumeric.
  destruct (not_null _ _ _ _ _ V) as (b1 & -> & V1); [reflexivity|cbn; lia|].
  rewrite (view_fuel _ _ _ _ _ V1).
  assert (Len : exists f, length ((word_text v ++ s) ++ rest) = S (S (S f))).
  { exists (length ((word_text v ++ s) ++ rest) - 3)%nat. rewrite !app_length.
    unfold word_text, quoted. repeat match goal with |- context [if ?x then _ else _] => destruct x end; cbn; lia. }
  destruct Len as [f ->].
  unfold word_text, quoted in V1. cbn [app] in V1.
  destruct (byte_view _ _ _ _ _ _ V1) as (b2 & B2 & V2).
  rewrite <- app_assoc in V2. cbn [app] in V2.
  cbn [numeric_loop]. rewrite B2. change (is_digit 34) with false. cbn [Z.eqb Pos.eqb orb].
  change (is_term 34) with false. cbn [Z.eqb Pos.eqb].
  destruct Hv as [->|[->| ->]].
  - change (lit (if _ =? _ then _ else _)) with (lit "NaN") in V2.
    change (if GO_NAN =? GO_NAN then lit "NaN" else if GO_NAN =? INF then lit "Infinity" else lit "-Infinity")
      with [78; 97; 78] in V2. cbn [app] in V2.
    destruct (byte_view _ _ _ _ _ _ V2) as (b3 & B3 & V3). rewrite B3.
    change (is_digit 78) with false. cbn [Z.eqb Pos.eqb orb]. change (is_term 78) with false. cbn [Z.eqb Pos.eqb].
    destruct (read_word [78] (lit "NaN") (0, GO_NAN) k b3 78 [97; 78] s rest Kl V3) as (b4 & -> & V4);
      [reflexivity|discriminate|reflexivity|]. eauto.
  - change (if INF =? GO_NAN then lit "NaN" else if INF =? INF then lit "Infinity" else lit "-Infinity")
      with [73; 110; 102; 105; 110; 105; 116; 121] in V2. cbn [app] in V2.
    destruct (byte_view _ _ _ _ _ _ V2) as (b3 & B3 & V3). rewrite B3.
    change (is_digit 73) with false. cbn [Z.eqb Pos.eqb orb]. change (is_term 73) with false. cbn [Z.eqb Pos.eqb].
    change (beq [] [] || beq [] [43]) with true. cbv iota.
    destruct (read_word [73] (lit "Infinity") (0, INF) k b3 73 [110; 102; 105; 110; 105; 116; 121] s rest Kl V3) as (b4 & -> & V4); [reflexivity|discriminate|reflexivity|]. eauto.
  - change (if NEG_INF =? GO_NAN then lit "NaN" else if NEG_INF =? INF then lit "Infinity" else lit "-Infinity")
      with [45; 73; 110; 102; 105; 110; 105; 116; 121] in V2. cbn [app] in V2.
    destruct (byte_view _ _ _ _ _ _ V2) as (b3 & B3 & V3). rewrite B3.
    change (is_digit 45) with false. cbn [Z.eqb Pos.eqb orb].
    destruct (byte_view _ _ _ _ _ _ V3) as (b3' & B3' & V3'). cbn [app numeric_loop]. rewrite B3'.
    change (is_digit 73) with false. cbn [Z.eqb Pos.eqb orb]. change (is_term 73) with false. cbn [Z.eqb Pos.eqb].
    change (beq [45] [] || beq [45] [43]) with false. change (beq [45] [45]) with true. cbv iota.
    destruct (read_word [45; 73] (lit "-Infinity") (0, NEG_INF) k b3' 73 [110; 102; 105; 110; 105; 116; 121] s rest Kl V3') as (b4 & -> & V4); [reflexivity|discriminate|reflexivity|]. eauto.
Qed.
End Read.
