(** Properties of serving many connections: C105. *)
From Coq Require Import ZArith List Bool Lia.
From Coq Require Import ZifyBool ZifyNat.
From Verif Require Import Base Errors Transport Proto Skip Arith Values Codec SkipProofs BinaryProofs BinarySpec Binary BinaryMsg
  TransportProofs Compact CompactSpec CompactProofs CompactRead CompactStruct CompactExact Buffer Framed FramedProofs Over Het OverSim OverInst OverRpc WfDec.
From Verif Require Import TField GoVal Compare TMap Gen GenSpec GenProofs GenInst GenRound PropGen.
From Verif Require Import AppExc AppExcProofs PropRpc Rpc RpcProofs PropService Serve ServeProofs ServeRounds PropServe.
Import ListNotations.
Open Scope Z_scope.

(** ** What the connections of a server should give *)

(** A connection: the requests to be read, the messages sent, whether it goes on. *)
Record side : Type := MkSide { sd_left : list request; sd_out : list answer; sd_open : bool }.
Section Shared.
Context {H : Type}.
Variable x : ext.
Variable handle : H -> bytes -> list any -> (list (Z * any) * option bytes) * H.
(** A turn of a connection: it answers its next request, ends after its last, and takes no part
    once it has ended. *)
Inductive one (h : H) : side -> side -> H -> Prop :=
| on_shut l o : one h (MkSide l o false) (MkSide l o false) h
| on_end o : one h (MkSide [] o true) (MkSide [] o false) h
| on_request r rs o a h' go : answers x handle h r a h' go ->
    one h (MkSide (r :: rs) o true) (MkSide rs (o ++ [a]) go) h'.
(** Turns in a given order; only the handler's state goes from one connection to another. *)
Inductive shared : H -> list side -> list nat -> H -> list side -> Prop :=
| sh_none h ss : shared h ss [] h ss
| sh_nobody h ss k ks h' ss' : (length ss <= k)%nat -> shared h ss ks h' ss' -> shared h ss (k :: ks) h' ss'
| sh_turn h pre s post ks s' h1 h2 ss : one h s s' h1 -> shared h1 (pre ++ s' :: post) ks h2 ss ->
    shared h (pre ++ s :: post) (length pre :: ks) h2 ss.
End Shared.
Definition new_side (reqs : list request) : side := MkSide reqs [] true.

(** ** Turns of the model *)
Section Turns.
Context {SR SW H : Type}.
Variable R : rproto SR.
Variable W : wproto SW.
Variable flush : wop SW.
Variable x : ext.
Variable M : Z.
Variable cf fuel : nat.
Variable errtext : err -> bytes.
Variable handle : H -> bytes -> list any -> (list (Z * any) * option bytes) * H.
Variable fs : list func.

Lemma ends_failed : forall st h si so p, process R W flush x M cf fuel errtext handle fs h si so = Ok p ->
  ends st p = negb (p_success p).
Proof.
  intros st h si so p E. pose proof (process_err _ _ _ _ _ _ _ _ _ _ _ _ _ _ _ _ _ E) as Q. unfold ends.
  destruct (p_err p) as [e|], (p_success p), st; try reflexivity. destruct Q as [_ Q]. discriminate (Q eq_refl).
Qed.

Variable okr : request -> Prop.
Variable ins : SR -> list request -> Prop.
Variable outs : SW -> bytes -> Prop.
Variable eans : answer -> bytes.
Hypothesis St : step_ok R W flush x M cf fuel errtext handle fs okr ins outs eans.
Hypothesis En : end_ok R ins.

Definition goes (c : conn SR SW) (s : side) : Prop :=
  Forall okr (sd_left s) /\ ins (cn_in c) (sd_left s) /\ outs (cn_out c) (concat (map eans (sd_out s))) /\
  cn_open c = sd_open s.

Lemma turn_one : forall st h c s, goes c s -> exists h' c' s',
  conn_turn x M cf fuel errtext handle fs R W flush st h c = Ok (h', c') /\ one x handle h s s' h' /\ goes c' s'.
Proof.
  intros st h [si so op] [left out o] (K & Hi & Ho & Eo). cbn [sd_left sd_out sd_open cn_in cn_out cn_open] in *. subst op.
  unfold conn_turn. cbn [cn_in cn_out cn_open]. destruct o.
  - destruct left as [|r rs].
    + destruct (En si Hi) as (m & e & s' & E & Hi').
      rewrite (process_header _ _ _ _ _ _ _ _ _ _ _ _ _ _ _ _ _ _ _ E). cbn [obind].
      eexists _, _, _. split; [reflexivity|]. split; [apply on_end|]. cbn [p_h p_in p_out].
      split; [exact K|]. split; [exact Hi'|]. split; [exact Ho|]. unfold ends. cbn. destruct st; reflexivity.
    + inversion K as [|? ? K1 K2]; subst. destruct (St r rs h si so _ K1 Hi Ho) as (p & a & P & A & Hi' & Ho').
      rewrite P. cbn [obind]. eexists _, _, _. split; [reflexivity|]. split; [apply on_request, A|].
      split; [exact K2|]. split; [exact Hi'|]. cbn [sd_out sd_open cn_out cn_open].
      split; [|rewrite (ends_failed st _ _ _ _ P); apply negb_involutive].
      rewrite map_app, concat_app. cbn [map concat]. rewrite app_nil_r. exact Ho'.
  - eexists _, _, _. split; [reflexivity|]. split; [apply on_shut|].
    split; [exact K|]. split; [exact Hi|]. split; [exact Ho|]. reflexivity.
Qed.

Lemma turn_conns : forall k st h cs ss, Forall2 goes cs ss -> exists h' cs' ss',
  conns_turn x M cf fuel errtext handle fs R W flush k st h cs = Ok (h', cs') /\ Forall2 goes cs' ss' /\
  ((length ss <= k)%nat /\ h' = h /\ ss' = ss \/
   exists pre s post s', ss = pre ++ s :: post /\ length pre = k /\ ss' = pre ++ s' :: post /\ one x handle h s s' h').
Proof.
  induction k as [|k IH]; intros st h cs ss F; destruct F as [|c s cs ss G F].
  - exists h, [], []. split; [reflexivity|]. split; [constructor|]. left. repeat split. cbn. lia.
  - destruct (turn_one st h c s G) as (h' & c' & s' & E & O & G'). exists h', (c' :: cs), (s' :: ss).
    cbn [conns_turn]. rewrite E. cbn [obind]. split; [reflexivity|]. split; [constructor; assumption|].
    right. exists [], s, ss, s'. repeat split. exact O.
  - exists h, [], []. split; [reflexivity|]. split; [constructor|]. left. repeat split. cbn. lia.
  - destruct (IH st h cs ss F) as (h' & cs' & ss' & E & F' & Q). exists h', (c :: cs'), (s :: ss').
    cbn [conns_turn]. rewrite E. cbn [obind]. split; [reflexivity|]. split; [constructor; assumption|].
    destruct Q as [(L & -> & ->)|(pre & s0 & post & s1 & -> & L & -> & O)].
    + left. repeat split. cbn. lia.
    + right. exists (s :: pre), s0, post, s1. repeat split; [cbn; lia|exact O].
Qed.

Lemma turns_shared : forall sched h cs ss, Forall2 goes cs ss -> exists h' cs' ss',
  turns x M cf fuel errtext handle fs R W flush sched h cs = Ok (h', cs') /\ Forall2 goes cs' ss' /\
  shared x handle h ss (map fst sched) h' ss'.
Proof.
  induction sched as [|[k st] sched IH]; intros h cs ss F.
  - exists h, cs, ss. split; [reflexivity|]. split; [exact F|constructor].
  - destruct (turn_conns k st h cs ss F) as (h1 & cs1 & ss1 & E & F1 & Q).
    destruct (IH h1 cs1 ss1 F1) as (h2 & cs2 & ss2 & E2 & F2 & S2). exists h2, cs2, ss2.
    cbn [turns]. rewrite E. cbn [obind]. split; [exact E2|]. split; [exact F2|]. cbn [map fst].
    destruct Q as [(L & -> & ->)|(pre & s0 & post & s1 & -> & <- & -> & O)].
    + apply sh_nobody; assumption.
    + eapply sh_turn; eassumption.
Qed.
End Turns.

(** ** C105: the connections of a server share nothing but the handler *)

(** What a client does: its requests, as sent, cut into frames if the server wants frames, and
    delivered in any pieces. *)
Definition client_ok (x : ext) (fuel : nat) (fs : list func) (sv : tserver) (strict : bool) (reqs : list request) (r : rt) : Prop :=
  Forall (request_ok x fuel fs (sv_in_p sv) (sv_out_p sv)) reqs /\
  exists bs ps, Forall2 (sent x (sv_in_p sv) strict) reqs bs /\ concat ps = concat bs /\
    Forall (carries (sv_in_t sv)) ps /\ benign r /\ content r = concat (map (carry (sv_in_t sv)) ps).

(** Any number of clients, any requests, any order of the turns, Stop at any time: each client is
    sent the answers to its own requests, as if the turns were taken by [shared]. *)
Theorem C105_shared : forall H intw sv x M cf fuel errtext
    (handle : H -> bytes -> list any -> (list (Z * any) * option bytes) * H) fs strict reqss rs sched h,
  32 <= intw -> header_ok (sv_in_p sv) strict -> service_ok x fuel handle fs (sv_out_p sv) ->
  Forall2 (client_ok x fuel fs sv strict) reqss rs ->
  exists h' ss,
    serve_many x M cf fuel errtext handle fs intw sv sched h rs =
      Ok (h', map (fun s => (sd_open s, concat (map (fun a => carry (sv_out_t sv) (told (sv_out_p sv) a)) (sd_out s)))) ss) /\
    shared x handle h (map new_side reqss) (map fst sched) h' ss.
Proof.
  intros H intw [it ot ip op] x M cf fuel errtext handle fs strict reqss rs sched h Wi Hd Sv Cl.
  unfold client_ok, serve_many in *. cbn [sv_in_t sv_out_t sv_in_p sv_out_p] in *.
  destruct (reader_rel intw it ip Wi) as (simi & RR & New).
  pose proof (lift_step (rd_proto (GetReader intw it ip)) (rd_proto (GetReader intw TFPlain ip))
    (wr_proto (GetWriter ot op)) (wr_proto (GetWriter TFPlain op)) (wr_flush (GetWriter ot op)) (wr_flush (GetWriter TFPlain op))
    simi RR x M cf fuel errtext handle fs (request_ok x fuel fs ip op) (plain_has intw x ip strict)
    (server_out ot op) (plain_out op) (fun a => carry ot (told op a)) (told op) (writer_round ot op)
    (plain_server_step H intw x M cf fuel errtext handle fs ip op strict Hd Sv)) as St.
  pose proof (lift_end (rd_proto (GetReader intw it ip)) (rd_proto (GetReader intw TFPlain ip)) simi RR
    (plain_has intw x ip strict) (plain_server_end intw x ip strict)) as En.
  set (G := goes (request_ok x fuel fs ip op) (ins1 simi (plain_has intw x ip strict)) (server_out ot op)
    (fun a => carry ot (told op a))).
  assert (F : Forall2 G (map (fun r => MkConn (rd_new (GetReader intw it ip) r) (wr_new (GetWriter ot op) (MkWt [] [])) true) rs)
                (map new_side reqss)).
  { clear - Cl New. induction Cl as [|reqs r reqss rs K Cl IH]; [constructor|]. cbn [map]. constructor; [|exact IH].
    destruct K as (Ro & bs & ps & Sn & Ep & Cp & B & X). destruct (New r ps B Cp X) as (s2 & Si & Pi). rewrite Ep in Pi.
    split; [exact Ro|]. split; [exists s2; split; [exact Si|]; exists bs; split; assumption|].
    split; [apply server_out_new|reflexivity]. }
  destruct (turns_shared _ _ _ x M cf fuel errtext handle fs _ _ _ _ St En sched h _ _ F) as (h' & cs & ss & E & F' & Sh).
  rewrite E. cbn [obind]. exists h', ss. split; [|exact Sh]. do 2 f_equal.
  clear - F'. induction F' as [|c s cs ss K F' IH]; [reflexivity|]. cbn [map]. rewrite IH. f_equal.
  destruct K as (_ & _ & Ho & Eo). rewrite Eo. f_equal. apply server_out_sent. exact Ho.
Qed.
Print Assumptions C105_shared.

(** Each client is answered in order, under its own names and sequence ids; only the last answer
    may be an EXCEPTION, after which its connection is closed and its other requests are left. *)
Theorem C105_own_answers : forall H x (handle : H -> bytes -> list any -> (list (Z * any) * option bytes) * H) h reqss ks h' ss,
  shared x handle h (map new_side reqss) ks h' ss ->
  Forall2 (fun reqs s => exists done, reqs = done ++ sd_left s /\ Forall2 answer_for done (sd_out s) /\
    (Forall (fun a => a_kind a = REPLY) (sd_out s) /\ (sd_open s = true \/ sd_left s = []) \/
     sd_open s = false /\
     exists before last, sd_out s = before ++ [last] /\ Forall (fun a => a_kind a = REPLY) before /\ a_kind last = EXCEPTION))
    reqss ss.
Proof.
  intros H x handle h reqss ks h' ss Sh.
  set (P := fun reqs s => exists done, reqs = done ++ sd_left s /\ Forall2 answer_for done (sd_out s) /\
    (Forall (fun a => a_kind a = REPLY) (sd_out s) /\ (sd_open s = true \/ sd_left s = []) \/
     sd_open s = false /\
     exists before last, sd_out s = before ++ [last] /\ Forall (fun a => a_kind a = REPLY) before /\ a_kind last = EXCEPTION)).
  assert (F : Forall2 P reqss (map new_side reqss)).
  { clear Sh. induction reqss as [|reqs reqss IH]; [constructor|]. cbn [map]. constructor; [|exact IH].
    exists []. split; [reflexivity|]. split; [constructor|]. left. split; [constructor|left; reflexivity]. }
  assert (St : forall h s s' h1 reqs, one x handle h s s' h1 -> P reqs s -> P reqs s').
  { intros h0 s s' h1 reqs O (done & E & Fa & Q). destruct O as [l o|o|r rs o a h1 go A]; cbn [sd_left sd_out sd_open] in *.
    - exists done. auto.
    - exists done. split; [exact E|]. split; [exact Fa|]. destruct Q as [[Q _]|[Q _]]; [|discriminate].
      left. split; [exact Q|right; reflexivity].
    - exists (done ++ [r]). split; [rewrite <- app_assoc; exact E|].
      assert (Af : answer_for r a /\ a_kind a = if go then REPLY else EXCEPTION)
        by (inversion A; subst; (split; [split|]; reflexivity)).
      destruct Af as [Af Ak]. split; [apply Forall2_app; [exact Fa|constructor; [exact Af|constructor]]|].
      destruct Q as [[Q _]|[Q _]]; [|discriminate]. destruct go; cbn [sd_open sd_out].
      + left. split; [apply Forall_app; split; [exact Q|constructor; [exact Ak|constructor]]|left; reflexivity].
      + right. split; [reflexivity|]. exists o, a. auto. }
  clearbody P. generalize dependent (map new_side reqss). intros ss0 Sh F.
  induction Sh as [h ss|h ss k ks h' ss' L Sh IH|h pre s post ks s' h1 h2 ss O Sh IH]; [exact F|apply IH, F|].
  apply IH. apply Forall2_app_inv_r in F. destruct F as (r1 & r2 & F1 & F2 & ->). apply Forall2_app; [exact F1|].
  inversion F2; subst. constructor; [eapply St; eassumption|assumption].
Qed.
Print Assumptions C105_own_answers.

(** A client that gets a turn for each of its requests and one more is done with, whatever the
    others do. *)
Theorem C105_finishes : forall H x (handle : H -> bytes -> list any -> (list (Z * any) * option bytes) * H)
    h reqss ks h' ss k reqs s,
  shared x handle h (map new_side reqss) ks h' ss -> nth_error reqss k = Some reqs -> nth_error ss k = Some s ->
  (length reqs < count_occ Nat.eq_dec ks k)%nat -> sd_open s = false.
Proof.
  intros H x handle h reqss ks h' ss k reqs s Sh Er Es L.
  assert (K : exists s0, nth_error (map new_side reqss) k = Some s0 /\ (sd_open s0 = true -> (length (sd_left s0) < count_occ Nat.eq_dec ks k)%nat)).
  { exists (new_side reqs). split; [apply map_nth_error, Er|]. intros _. exact L. }
  clear Er L reqs. generalize dependent (map new_side reqss). intros ss0 Sh K. clear reqss.
  induction Sh as [h ss|h ss j ks h' ss' L Sh IH|h pre s1 post ks s' h1 h2 ss O Sh IH].
  - destruct K as (s0 & E & K). rewrite E in Es. injection Es as ->. cbn in K.
    destruct (sd_open s); [specialize (K eq_refl); lia|reflexivity].
  - apply IH; [exact Es|]. destruct K as (s0 & E & K). exists s0. split; [exact E|]. intro Op. specialize (K Op).
    cbn [count_occ] in K. destruct (Nat.eq_dec j k); [|exact K]. subst j. apply nth_error_None in L. congruence.
  - apply IH; [exact Es|]. destruct K as (s0 & E & K). cbn [count_occ] in K. destruct (Nat.eq_dec (length pre) k) as [Ek|Ek].
    + subst k. rewrite nth_error_app2 in E by lia. rewrite Nat.sub_diag in E. injection E as ->.
      exists s'. split; [rewrite nth_error_app2 by lia; rewrite Nat.sub_diag; reflexivity|]. intro Op.
      destruct O as [l o|o|r rs o a h1 go A]; cbn [sd_open sd_left] in *; try discriminate.
      specialize (K eq_refl). cbn [length] in K. lia.
    + exists s0. split; [|exact K]. destruct (Nat.ltb_spec k (length pre)) as [L|L].
      * rewrite nth_error_app1 in * by lia. exact E.
      * rewrite nth_error_app2 in * by lia. destruct (k - length pre)%nat eqn:D; [lia|exact E].
Qed.
Print Assumptions C105_finishes.

(** *** One client at a time *)

(** The sessions of a TSimpleServer, the handler's state going from each to the next. *)
Inductive one_by_one {H} (x : ext) (handle : H -> bytes -> list any -> (list (Z * any) * option bytes) * H)
  : H -> list (list request) -> list (list answer) -> H -> Prop :=
| ob_none h : one_by_one x handle h [] [] h
| ob_next h reqs out h1 left reqss outs h2 : session x handle h reqs out h1 left ->
    one_by_one x handle h1 reqss outs h2 -> one_by_one x handle h (reqs :: reqss) (out :: outs) h2.
Theorem C105_one_by_one : forall H intw sv x M cf fuel errtext
    (handle : H -> bytes -> list any -> (list (Z * any) * option bytes) * H) fs stopped strict reqss rs rounds h,
  32 <= intw -> header_ok (sv_in_p sv) strict -> service_ok x fuel handle fs (sv_out_p sv) ->
  Forall2 (client_ok x fuel fs sv strict) reqss rs -> Forall (fun reqs => (length reqs < rounds)%nat) reqss ->
  exists h' outs,
    serve_each x M cf fuel errtext handle fs stopped intw sv rounds h rs =
      Ok (h', map (fun out => concat (map (fun a => carry (sv_out_t sv) (told (sv_out_p sv) a)) out)) outs) /\
    one_by_one x handle h reqss outs h'.
Proof.
  intros H intw sv x M cf fuel errtext handle fs stopped strict reqss rs rounds h Wi Hd Sv Cl L.
  revert h. induction Cl as [|reqs r reqss rs K Cl IH]; intro h.
  - exists h, []. split; [reflexivity|constructor].
  - inversion L as [|? ? L1 L2]; subst. destruct K as (Ro & bs & ps & Sn & Ep & Cp & B & X).
    destruct (connection H intw sv x M cf fuel errtext handle fs strict stopped reqs bs ps r rounds h Wi Hd Sv Ro Sn Ep Cp B X L1)
      as (h1 & out & left & E1 & Se).
    destruct (IH L2 h1) as (h2 & outs & E2 & O). exists h2, (out :: outs). cbn [serve_each]. rewrite E1. cbn [obind].
    rewrite E2. cbn [obind map]. split; [reflexivity|]. econstructor; eassumption.
Qed.
Print Assumptions C105_one_by_one.

Section Alone.
Context {SR SW H : Type}.
Variable R : rproto SR.
Variable W : wproto SW.
Variable flush : wop SW.
Variable x : ext.
Variable M : Z.
Variable cf fuel : nat.
Variable errtext : err -> bytes.
Variable handle : H -> bytes -> list any -> (list (Z * any) * option bytes) * H.
Variable fs : list func.
Let loop := serve_loop x M cf fuel errtext handle fs (fun _ => false) R W flush.
Let proc := process R W flush x M cf fuel errtext handle fs.

Lemma turn_at : forall k st h pre c post, length pre = k ->
  conns_turn x M cf fuel errtext handle fs R W flush k st h (pre ++ c :: post) =
  ('(h', c') <- conn_turn x M cf fuel errtext handle fs R W flush st h c ;; Ok (h', pre ++ c' :: post)).
Proof.
  intros k st h pre c post <-. induction pre as [|d pre IH].
  - reflexivity.
  - cbn [length app conns_turn]. rewrite IH.
    destruct (conn_turn x M cf fuel errtext handle fs R W flush st h c) as [[h' c']| |]; reflexivity.
Qed.
(** The turns of one client in a row. *)
Lemma row : forall rounds n h si so h' si' so', loop rounds n h si so = Ok (h', si', so') ->
  exists m, forall pre post sched,
    turns x M cf fuel errtext handle fs R W flush (repeat (length pre, false) m ++ sched) h (pre ++ MkConn si so true :: post) =
    turns x M cf fuel errtext handle fs R W flush sched h' (pre ++ MkConn si' so' false :: post).
Proof.
  induction rounds as [|rounds IH]; intros n h si so h' si' so' E; [discriminate|].
  destruct (proc h si so) as [p| |] eqn:P;
    [|unfold loop, proc in *; cbn [serve_loop] in E; rewrite P in E; discriminate
     |unfold loop, proc in *; cbn [serve_loop] in E; rewrite P in E; discriminate].
  unfold loop in E. rewrite (loop_step _ _ _ _ _ _ _ _ _ _ _ _ _ _ _ _ _ P) in E.
  assert (T : forall pre post sched, turns x M cf fuel errtext handle fs R W flush ((length pre, false) :: sched) h (pre ++ MkConn si so true :: post) =
    turns x M cf fuel errtext handle fs R W flush sched (p_h p) (pre ++ MkConn (p_in p) (p_out p) (p_success p) :: post)).
  { intros pre post sched. cbn [turns]. rewrite turn_at by reflexivity. unfold conn_turn. cbn [cn_open cn_in cn_out].
    fold proc. rewrite P. cbn [obind]. rewrite (ends_failed _ _ _ _ _ _ _ _ _ _ _ _ _ _ _ P), negb_involutive. reflexivity. }
  destruct (p_success p).
  - destruct (IH _ _ _ _ _ _ _ E) as (m & Q). exists (S m). intros. cbn [repeat app]. rewrite T. apply Q.
  - injection E as <- <- <-. exists 1%nat. intros. cbn [repeat app]. apply T.
Qed.

(** *** A handler without state *)
Hypothesis stateless : forall h1 h2 name vals, fst (handle h1 name vals) = fst (handle h2 name vals).
Definition bare (p : @pout SR SW H) := (p_success p, p_err p, p_in p, p_out p).
Definition omap {A B} (f : A -> B) (o : outcome A) : outcome B :=
  match o with Ok a => Ok (f a) | Panic => Panic | OutOfFuel => OutOfFuel end.
Lemma proc_stateless : forall h1 h2 si so, omap bare (proc h1 si so) = omap bare (proc h2 si so).
Proof.
  intros h1 h2 si so. unfold proc, process.
  destruct (rMessageBegin R si) as [[[[[name t] seq] e] s1]| |]; cbn [obind]; try reflexivity.
  destruct e; [reflexivity|]. destruct (lookup_fn fs name) as [f|].
  - unfold process_fn. destruct (gread R x M cf fuel (TyStruct (args_name f) (fn_args f)) s1) as [[[args|e] s2]| |]; cbn [obind]; try reflexivity.
    + destruct (rMessageEnd R s2) as [[e2 s3]| |]; cbn [obind]; try reflexivity.
      set (vals := map _ _). pose proof (stateless h1 h2 (fn_name f) vals) as Q.
      destruct (handle h1 (fn_name f) vals) as [[a1 t1] g1], (handle h2 (fn_name f) vals) as [[a2 t2] g2].
      cbn in Q. injection Q as -> ->. destruct t2.
      * destruct (write_exception _ _ _ _ _ _); reflexivity.
      * destruct (wMessageBegin W (fn_name f) REPLY seq so) as [[e1 o1]| |]; cbn [obind]; try reflexivity.
        destruct (gwrite_result W x fuel (result_name f) (result_members f) _ o1) as [[e3 o2]| |]; cbn [obind]; try reflexivity.
        destruct (wMessageEnd W o2) as [[e4 o3]| |]; cbn [obind]; try reflexivity.
        destruct (flush o3) as [[e5 o4]| |]; cbn [obind]; try reflexivity.
        destruct (first_error _ _); reflexivity.
    + destruct (rMessageEnd R s2) as [[e2 s3]| |]; cbn [obind]; try reflexivity.
      destruct (write_exception _ _ _ _ _ _); reflexivity.
  - destruct (skip_default R M fuel STRUCT s1) as [[e2 s2]| |]; cbn [obind]; try reflexivity.
    destruct (rMessageEnd R s2) as [[e3 s3]| |]; cbn [obind]; try reflexivity.
    destruct (write_exception _ _ _ _ _ _); reflexivity.
Qed.
Definition ends_of (q : H * SR * SW) : SR * SW := (snd (fst q), snd q).
Lemma loop_stateless : forall rounds n1 n2 h1 h2 si so,
  omap ends_of (loop rounds n1 h1 si so) = omap ends_of (loop rounds n2 h2 si so).
Proof.
  unfold loop. induction rounds as [|rounds IH]; intros n1 n2 h1 h2 si so; [reflexivity|].
  pose proof (proc_stateless h1 h2 si so) as Q. unfold proc in Q.
  destruct (process R W flush x M cf fuel errtext handle fs h1 si so) as [p1| |] eqn:P1,
    (process R W flush x M cf fuel errtext handle fs h2 si so) as [p2| |] eqn:P2; try discriminate;
    try (cbn [serve_loop]; rewrite P1, P2; reflexivity).
  rewrite (loop_step _ _ _ _ _ _ _ _ _ _ _ _ _ _ _ _ _ P1), (loop_step _ _ _ _ _ _ _ _ _ _ _ _ _ _ _ _ _ P2).
  cbn in Q. unfold bare in Q. injection Q as -> _ -> ->. destruct (p_success p2); [apply IH|reflexivity].
Qed.

(** What a connection has become is what it becomes alone. *)
Definition as_alone (c0 c : conn SR SW) : Prop :=
  exists j, forall rounds h, omap ends_of (loop (j + rounds) 0 h (cn_in c0) (cn_out c0)) =
    if cn_open c then omap ends_of (loop rounds 0 h (cn_in c) (cn_out c)) else Ok (cn_in c, cn_out c).
Lemma alone_turn : forall st h c0 c h' c', as_alone c0 c ->
  conn_turn x M cf fuel errtext handle fs R W flush st h c = Ok (h', c') -> as_alone c0 c'.
Proof.
  intros st h c0 [si so op] h' c' (j & A) E. unfold conn_turn in E. cbn [cn_open cn_in cn_out] in *. destruct op.
  - fold proc in E. destruct (proc h si so) as [p| |] eqn:P; cbn [obind] in E; try discriminate.
    rewrite (ends_failed _ _ _ _ _ _ _ _ _ _ _ _ _ _ _ P), negb_involutive in E. injection E as <- <-.
    exists (S j). intros rounds h0. replace (S j + rounds)%nat with (j + S rounds)%nat by lia. rewrite A.
    rewrite (loop_stateless _ 0 0 h0 h). unfold loop. rewrite (loop_step _ _ _ _ _ _ _ _ _ _ _ _ _ _ _ _ _ P).
    cbn [cn_open cn_in cn_out]. destruct (p_success p); [apply loop_stateless|reflexivity].
  - injection E as <- <-. exists j. exact A.
Qed.
Lemma alone_turns : forall cs0 sched h cs h' cs', Forall2 as_alone cs0 cs ->
  turns x M cf fuel errtext handle fs R W flush sched h cs = Ok (h', cs') -> Forall2 as_alone cs0 cs'.
Proof.
  assert (T : forall cs0 k st h cs h' cs', Forall2 as_alone cs0 cs ->
    conns_turn x M cf fuel errtext handle fs R W flush k st h cs = Ok (h', cs') -> Forall2 as_alone cs0 cs').
  { induction cs0 as [|c0 cs0 IH]; intros k st h cs h' cs' F E; inversion F as [|? c ? cs1 G F1]; subst.
    - destruct k; cbn in E; injection E as <- <-; constructor.
    - destruct k; cbn [conns_turn] in E.
      + destruct (conn_turn x M cf fuel errtext handle fs R W flush st h c) as [[h1 c1]| |] eqn:E1; cbn [obind] in E; try discriminate.
        injection E as <- <-. constructor; [eapply alone_turn; eassumption|exact F1].
      + destruct (conns_turn x M cf fuel errtext handle fs R W flush k st h cs1) as [[h1 cs2]| |] eqn:E1; cbn [obind] in E; try discriminate.
        injection E as <- <-. constructor; [exact G|]. eapply IH; eassumption. }
  intros cs0. induction sched as [|[k st] sched IH]; intros h cs h' cs' F E; cbn [turns] in E.
  - injection E as <- <-. exact F.
  - destruct (conns_turn x M cf fuel errtext handle fs R W flush k st h cs) as [[h1 cs1]| |] eqn:E1; cbn [obind] in E; try discriminate.
    eapply IH; [eapply T; eassumption|exact E].
Qed.
End Alone.

Fixpoint ascending (ks : list nat) : Prop :=
  match ks with [] => True | k :: ks => Forall (fun j => (k <= j)%nat) ks /\ ascending ks end.
(** A TSimpleServer is a server with many connections where each client's turns come before the
    next client's, whatever the clients send. *)
Theorem C105_in_turn : forall H intw sv x M cf fuel errtext
    (handle : H -> bytes -> list any -> (list (Z * any) * option bytes) * H) fs stopped rounds rs h h' bs,
  serve_each x M cf fuel errtext handle fs stopped intw sv rounds h rs = Ok (h', bs) ->
  exists sched, ascending (map fst sched) /\
    serve_many x M cf fuel errtext handle fs intw sv sched h rs = Ok (h', map (fun b => (false, b)) bs).
Proof.
  intros H intw sv x M cf fuel errtext handle fs stopped rounds rs h h' bs E. unfold serve_many.
  set (R := GetReader intw (sv_in_t sv) (sv_in_p sv)). set (W := GetWriter (sv_out_t sv) (sv_out_p sv)).
  set (start := fun r => MkConn (rd_new R r) (wr_new W (MkWt [] [])) true).
  set (show := fun c : conn (rd_st R) (wr_st W) => (cn_open c, w_out (wr_sent W (cn_out c)))).
  assert (G : forall rs h h' bs pre, serve_each x M cf fuel errtext handle fs stopped intw sv rounds h rs = Ok (h', bs) ->
    exists sched cs, ascending (map fst sched) /\ Forall (fun k => (length pre <= k)%nat) (map fst sched) /\
      turns x M cf fuel errtext handle fs (rd_proto R) (wr_proto W) (wr_flush W) sched h (pre ++ map start rs) = Ok (h', pre ++ cs) /\
      map show cs = map (fun b => (false, b)) bs).
  { clear rs h h' bs E. induction rs as [|r rs IH]; intros h h' bs pre E; cbn [serve_each] in E.
    - injection E as <- <-. exists [], []. repeat split; constructor.
    - destruct (processRequest x M cf fuel errtext handle fs stopped intw sv rounds h r) as [[h1 b]| |] eqn:E1; cbn [obind] in E; try discriminate.
      destruct (serve_each x M cf fuel errtext handle fs stopped intw sv rounds h1 rs) as [[h2 bs2]| |] eqn:E2; cbn [obind] in E; try discriminate.
      injection E as <- <-. unfold processRequest in E1. fold R W in E1.
      rewrite (loop_stop _ _ _ _ _ _ _ _ _ _ stopped (fun _ => false) _ 0%nat 0%nat) in E1.
      destruct (serve_loop x M cf fuel errtext handle fs (fun _ => false) (rd_proto R) (wr_proto W) (wr_flush W) rounds 0 h
        (rd_new R r) (wr_new W (MkWt [] []))) as [[[h3 si'] so']| |] eqn:E3; cbn [obind] in E1; try discriminate.
      injection E1 as -> <-.
      destruct (row _ _ _ x M cf fuel errtext handle fs _ _ _ _ _ _ _ _ E3) as (m & Q).
      destruct (IH h1 h2 bs2 (pre ++ [MkConn si' so' false]) E2) as (sched & cs & As & Lo & T & Sh).
      exists (repeat (length pre, false) m ++ sched), (MkConn si' so' false :: cs).
      assert (Rp : map fst (repeat (length pre, false) m) = repeat (length pre) m).
      { clear. induction m; cbn; congruence. }
      rewrite app_length in Lo. cbn [length] in Lo.
      assert (Lo' : Forall (fun k => (length pre <= k)%nat) (map fst sched)).
      { revert Lo. apply Forall_impl. intros. lia. }
      assert (Rl : Forall (fun k => (length pre <= k)%nat) (repeat (length pre) m)).
      { apply Forall_forall. intros k Hk. apply repeat_spec in Hk. lia. }
      rewrite map_app, Rp. split; [|split; [|split]].
      + clear - As Lo' Rl. induction m as [|m IHm]; cbn [repeat app ascending]; [exact As|].
        inversion Rl; subst. split; [apply Forall_app; split; assumption|apply IHm; assumption].
      + apply Forall_app. split; assumption.
      + cbn [map]. unfold start at 1. rewrite Q. rewrite <- !app_assoc in T. exact T.
      + cbn [map]. rewrite Sh. reflexivity. }
  destruct (G rs h h' bs [] E) as (sched & cs & As & _ & T & Sh). exists sched. split; [exact As|].
  cbn [app] in T. fold start. rewrite T. cbn [obind]. fold show. rewrite Sh. reflexivity.
Qed.
Print Assumptions C105_in_turn.

(** With a handler that keeps no state, a client whose connection has ended was sent what it would
    have been sent by a server of its own: whatever it and the others sent, in whatever order they
    were served. *)
Theorem C105_isolated : forall H intw sv x M cf fuel errtext
    (handle : H -> bytes -> list any -> (list (Z * any) * option bytes) * H) fs sched h rs h' outs k r b,
  (forall h1 h2 name vals, fst (handle h1 name vals) = fst (handle h2 name vals)) ->
  serve_many x M cf fuel errtext handle fs intw sv sched h rs = Ok (h', outs) ->
  nth_error rs k = Some r -> nth_error outs k = Some (false, b) ->
  exists rounds, forall stopped h0, exists h1,
    processRequest x M cf fuel errtext handle fs stopped intw sv rounds h0 r = Ok (h1, b).
Proof.
  intros H intw sv x M cf fuel errtext handle fs sched h rs h' outs k r b Sl E Er Eb. unfold serve_many in E.
  set (R := GetReader intw (sv_in_t sv) (sv_in_p sv)) in *. set (W := GetWriter (sv_out_t sv) (sv_out_p sv)) in *.
  set (start := fun r => MkConn (rd_new R r) (wr_new W (MkWt [] [])) true) in *.
  destruct (turns x M cf fuel errtext handle fs (rd_proto R) (wr_proto W) (wr_flush W) sched h (map start rs)) as [[h2 cs]| |] eqn:T;
    cbn [obind] in E; try discriminate. injection E as <- <-.
  assert (F0 : Forall2 (as_alone (rd_proto R) (wr_proto W) (wr_flush W) x M cf fuel errtext handle fs) (map start rs) (map start rs)).
  { clear. induction rs; cbn [map]; constructor; [|assumption]. exists 0%nat. intros. reflexivity. }
  pose proof (alone_turns (rd_proto R) (wr_proto W) (wr_flush W) x M cf fuel errtext handle fs Sl _ _ _ _ _ _ F0 T) as F.
  rewrite nth_error_map in Eb. destruct (nth_error cs k) as [c|] eqn:Ec; cbn in Eb; try discriminate. injection Eb as Eo <-.
  assert (A : as_alone (rd_proto R) (wr_proto W) (wr_flush W) x M cf fuel errtext handle fs (start r) c).
  { clear - F Er Ec. apply (map_nth_error start) in Er. revert k Er Ec. induction F; intros [|k] Er Ec; cbn in *; try discriminate.
    - injection Er as <-. injection Ec as <-. assumption.
    - eapply IHF; eassumption. }
  destruct A as (j & A). rewrite Eo in A. exists (j + 0)%nat. intros stopped h0. specialize (A 0%nat h0).
  unfold processRequest. fold R W. rewrite (loop_stop _ _ _ _ _ _ _ _ _ _ stopped (fun _ => false) _ 0%nat 0%nat).
  cbn [cn_in cn_out start] in A.
  destruct (serve_loop x M cf fuel errtext handle fs (fun _ => false) (rd_proto R) (wr_proto W) (wr_flush W) (j + 0) 0 h0
    (rd_new R r) (wr_new W (MkWt [] []))) as [[[h3 si'] so']| |]; cbn in A; try discriminate.
  injection A as Ei Eo'. exists h3. cbn [obind]. rewrite Eo'. reflexivity.
Qed.
Print Assumptions C105_isolated.

(** *** Hypotheses met: three clients of the example service, the second sending its requests in
    the order 12, 13, in one frame; Stop is called after the third turn. *)
Definition ex_second : list request := [Known ex_add ex_args 12; Known ex_add ex_args 13].
Definition ex_second_wires (pf : pfactory) (strict : bool) : list bytes :=
  [wire_msg pf strict [97; 100; 100] CALL 12 ++ wire_val pf ex_argsw;
   wire_msg pf strict [97; 100; 100] CALL 13 ++ wire_val pf ex_argsw].
Definition ex_server : tserver := NewTSimpleServer6 TFFramed TFFramed PFCompact (PFBinary true false).
Definition ex_client1 : rt :=
  let ws := ex_wires PFCompact true in ex_two (frame (nth 0 ws [] ++ nth 1 ws []) ++ frame (nth 2 ws [])).
Definition ex_client2 : rt := ex_two (frame (concat (ex_second_wires PFCompact true))).
Lemma ex_known : forall ip op seq, in_s 32 seq -> request_ok ext0 40 ex_fs ip op (Known ex_add ex_args seq).
Proof.
  intros ip op seq Hs. split; [cbn; auto|]. split; [exact ex_args_kept|]. split; [exact Hs|].
  intros w Ww. rewrite (wireof_fun _ _ _ _ _ Ww ex_args_wire). split; [cbn; lia|]. intros _. split; reflexivity.
Qed.
Lemma ex_clients : Forall2 (client_ok ext0 40 ex_fs ex_server true) [ex_reqs; ex_second; []] [ex_client1; ex_client2; []].
Proof.
  constructor; [|constructor; [|constructor; [|constructor]]].
  - split; [apply ex_requests|]. exists (ex_wires PFCompact true).
    exists [nth 0 (ex_wires PFCompact true) [] ++ nth 1 (ex_wires PFCompact true) []; nth 2 (ex_wires PFCompact true) []].
    split; [apply ex_sent|]. split; [vm_compute; reflexivity|]. split.
    { constructor; [split; [discriminate|vm_compute; reflexivity]|].
      constructor; [split; [discriminate|vm_compute; reflexivity]|constructor]. }
    split; [apply benignb_ok; vm_compute; reflexivity|vm_compute; reflexivity].
  - split; [constructor; [apply ex_known; unfold in_s; cbn; lia|constructor; [apply ex_known; unfold in_s; cbn; lia|constructor]]|].
    exists (ex_second_wires PFCompact true), [concat (ex_second_wires PFCompact true)].
    split.
    { constructor; [apply (sn_known _ _ _ ex_add ex_args 12 _ ex_args_wire)|].
      constructor; [apply (sn_known _ _ _ ex_add ex_args 13 _ ex_args_wire)|constructor]. }
    split; [vm_compute; reflexivity|].
    split; [constructor; [split; [discriminate|vm_compute; reflexivity]|constructor]|].
    split; [apply benignb_ok; vm_compute; reflexivity|vm_compute; reflexivity].
  - split; [constructor|]. exists [], []. repeat split; constructor.
Qed.
Definition ex_add_reply (seq sum : Z) : answer := MkAnswer [97; 100; 100] REPLY seq [(0, VI64 sum)].
Definition ex_refused : answer := MkAnswer [122] EXCEPTION 10 (exc_fields (MkExc UNKNOWN_METHOD (s_unknown ++ [122]))).
Definition ex_sched : list (nat * bool) := [(1%nat, false); (0%nat, false); (5%nat, false); (1%nat, true); (0%nat, true); (2%nat, true); (0%nat, true); (1%nat, true)].
(** The same, the handler adding always the same number. *)
Definition ex_still (h : Z) (name : bytes) (vals : list any) : (list (Z * any) * option bytes) * Z :=
  (fst (ex_handle 7 name vals), h + 1).
Example C105_case :
  service_ok ext0 40 ex_handle ex_fs (sv_out_p ex_server) /\
  Forall2 (client_ok ext0 40 ex_fs ex_server true) [ex_reqs; ex_second; []] [ex_client1; ex_client2; []] /\
  let show l := concat (map (fun a => frame (told (PFBinary true false) a)) l) in
  serve_many ext0 64 5 40 errtext0 ex_handle ex_fs 64 ex_server ex_sched 7 [ex_client1; ex_client2; []] =
    Ok (10, [(false, show [ex_add_reply 9 13; ex_refused]);
             (false, show [ex_add_reply 12 12; ex_add_reply 13 14]); (false, [])]) /\
  serve_each ext0 64 5 40 errtext0 ex_handle ex_fs (fun _ => false) 64 ex_server 4 7 [ex_client1; ex_client2; []] =
    Ok (10, [show [ex_add_reply 9 12; ex_refused]; show [ex_add_reply 12 13; ex_add_reply 13 14]; []]) /\
  (forall h1 h2 name vals, fst (ex_still h1 name vals) = fst (ex_still h2 name vals)) /\
  serve_many ext0 64 5 40 errtext0 ex_still ex_fs 64 ex_server ex_sched 7 [ex_client1; ex_client2; [([1; 2], None)]] =
    Ok (10, [(false, show [ex_add_reply 9 12; ex_refused]);
             (false, show [ex_add_reply 12 12; ex_add_reply 13 12]); (false, [])]).
Proof.
  split; [apply ex_service|]. split; [exact ex_clients|]. cbv zeta.
  split; [vm_compute; reflexivity|]. split; [vm_compute; reflexivity|]. split; [reflexivity|vm_compute; reflexivity].
Qed.
