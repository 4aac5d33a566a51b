(** Properties of the tutorial's program: C112. *)
From Coq Require Import ZArith List Bool Lia String.
From Coq Require Import ZifyBool ZifyNat.
From Verif Require Import Base Errors Transport Proto Skip Arith Values Codec SkipProofs BinaryProofs BinarySpec Binary BinaryMsg
  TransportProofs Compact CompactSpec CompactProofs CompactRead CompactStruct WfDec.
From Verif Require Import Buffer BufIO Framed FramedProofs MemBuffer IOStream Http Socket ReadProg WriteErr Over Het OverSim OverInst OverRpc PropFramed.
From Verif Require Import Strconv TField GoVal Compare TMap Gen GenSpec GenProofs GenInst GenRound PropGen.
From Verif Require Import AppExc AppExcProofs PropRpc Names Rpc RpcProofs PropService RpcInv PropOver PropOverRpc Sizes PropFramedCalls
  Tutorial PropTutorial PropFramedTutorial Serve TutorialMain.
Import ListNotations.
Open Scope list_scope.
Open Scope Z_scope.
Local Notation length := List.length.

(** ** C112 *)

(** The transports and protocols the flags' descriptions speak of. *)
Inductive wrapping : bool -> tfactory -> Prop :=
| wr_plain : wrapping false TFPlain
| wr_framed : wrapping true TFFramed.
Inductive named : string -> mfactory -> Prop :=
| nm_binary : named "binary" (MThrift (PFBinary false true))
| nm_empty : named "" (MThrift (PFBinary false true))
| nm_compact : named "compact" (MThrift PFCompact)
| nm_simple : named "simplejson" MSimpleJSON
| nm_json : named "json" MJSON.
(** A command line that says what to do: be the client or the server, with protocol [s]. *)
Definition asked (client : bool) (s : string) (framed : bool) (g : flags) : Prop :=
  g_help g = false /\ g_client g = client /\ g_server g = negb client /\ g_protocol g = lit s /\ g_framed g = framed.

Lemma choose_named : forall s p, named s p -> choose (lit s) = Some p.
Proof. intros s p N. inversion N; reflexivity. Qed.
Lemma chosen_named : forall b p, choose b = Some p -> exists s, b = lit s /\ named s p.
Proof.
  intros b p E. unfold choose in E.
  destruct (str_eq b (lit "compact")) eqn:E1; [apply str_eq_iff in E1; injection E as <-; eexists; split; [exact E1|constructor]|].
  destruct (str_eq b (lit "simplejson")) eqn:E2; [apply str_eq_iff in E2; injection E as <-; eexists; split; [exact E2|constructor]|].
  destruct (str_eq b (lit "json")) eqn:E3; [apply str_eq_iff in E3; injection E as <-; eexists; split; [exact E3|constructor]|].
  destruct (str_eq b (lit "binary")) eqn:E4; [apply str_eq_iff in E4; injection E as <-; eexists; split; [exact E4|constructor]|].
  destruct (str_eq b []) eqn:E5; [|discriminate]. apply str_eq_iff in E5. injection E as <-. exists ""%string. split; [exact E5|constructor].
Qed.

(** Asked to be the client with a connection to be had, the program talks to the server over what it was told to,
    and ends with status 0; asked to be the server it serves over what it was told to. *)
Theorem C112_asked : forall s framed p t g o n, named s p -> wrapping framed t ->
  (asked true s framed g -> e_resolve o = None -> e_open o = None -> main g o n = ([DPerform t p], Exits 0)) /\
  (asked false s framed g -> e_resolve o = None -> e_listen o = None -> (0 < n)%nat ->
     exists d f, main g o n = (DServe t p :: d, f) /\ forall x, In x d -> x = DServe t p \/ exists e, x = DPrint e).
Proof.
  intros s framed p t g o n N Wr.
  assert (T : (if framed then TFFramed else TFPlain) = t) by (inversion Wr; reflexivity).
  split.
  - intros (Hh & Hc & Hs & Hp & Hf) R O. unfold main, RunClient. rewrite Hh, Hc, Hs, Hp, Hf, (choose_named s p N), R, O, T. reflexivity.
  - intros (Hh & Hc & Hs & Hp & Hf) R L Hn. unfold main, RunServer, Simple. rewrite Hh, Hc, Hs, Hp, Hf, (choose_named s p N), R, L, T.
    cbn [orb andb negb]. destruct n as [|n]; [lia|]. cbn [serve_for].
    assert (G : forall n k x, In x (fst (serve_for o t p n k)) -> x = DServe t p \/ exists e, x = DPrint e).
    { clear. induction n as [|n IH]; intros k x I; cbn [serve_for] in I; [destruct I|].
      destruct (e_serve o k) as [e|].
      - destruct I as [<-|[<-|[]]]; [auto|right; exists e; reflexivity].
      - specialize (IH (S k) x). destruct (serve_for o t p n (S k)) as [d r]. destruct I as [<-|I]; auto. }
    destruct (e_serve o 0) as [e|].
    + eexists _, _. split; [reflexivity|]. intros x [<-|[]]. right. exists e. reflexivity.
    + specialize (G n 1%nat). destruct (serve_for o t p n 1) as [d r]. eexists _, _. split; [reflexivity|exact G].
Qed.
Print Assumptions C112_asked.
(** Nothing else makes it talk or serve. *)
Theorem C112_only : forall g o n t p,
  (In (DPerform t p) (fst (main g o n)) -> exists s framed, asked true s framed g /\ named s p /\ wrapping framed t) /\
  (In (DServe t p) (fst (main g o n)) -> exists s framed, asked false s framed g /\ named s p /\ wrapping framed t).
Proof.
  assert (Sv : forall o t p n k x, In x (fst (serve_for o t p n k)) -> x = DServe t p \/ exists e, x = DPrint e).
  { induction n as [|n IH]; intros k x I; cbn [serve_for] in I; [destruct I|].
    destruct (e_serve o k) as [e|].
    - destruct I as [<-|[<-|[]]]; [auto|right; exists e; reflexivity].
    - specialize (IH (S k) x). destruct (serve_for o t p n (S k)) as [d r]. destruct I as [<-|I]; auto. }
  intros [c s pr fr ht he] o n t p. unfold main. cbn [g_help g_client g_server g_protocol g_framed].
  destruct he; [cbn; split; intros [D|[]]; discriminate|].
  destruct c, s; try (cbn; split; intros [D|[]]; discriminate); cbn [orb andb negb].
  - destruct (choose pr) as [q|] eqn:Ch; [|cbn; split; intros [D|[D|[]]]; discriminate].
    destruct (chosen_named _ _ Ch) as (s & -> & N). unfold RunClient.
    destruct (e_resolve o); [cbn; split; intros [D|[]]; discriminate|].
    destruct (e_open o); [cbn; split; intros [D|[]]; discriminate|].
    cbn [fst]. split; intros [D|[]]; [|discriminate]. injection D as <- <-.
    exists s, fr. split; [split; [reflexivity|]; auto|]. split; [exact N|]. destruct fr; constructor.
  - destruct (choose pr) as [q|] eqn:Ch; [|cbn; split; intros [D|[D|[]]]; discriminate].
    destruct (chosen_named _ _ Ch) as (s & -> & N). unfold RunServer, Simple.
    destruct (e_resolve o); [cbn; split; intros [D|[]]; discriminate|].
    destruct (e_listen o); [cbn; split; intros [D|[]]; discriminate|].
    specialize (Sv o (if fr then TFFramed else TFPlain) q n 0%nat). destruct (serve_for _ _ _ _ _) as [d r]. cbn [fst] in *.
    split; intro I; destruct (Sv _ I) as [D|[e D]]; try discriminate. injection D as -> ->.
    exists s, fr. split; [split; [reflexivity|]; auto|]. split; [exact N|]. destruct fr; constructor.
Qed.
Print Assumptions C112_only.

(** *** A client and a server *)

Lemma perform_asks : Forall2 asks perform_requests Perform.
Proof.
  assert (I : forall z, -1000 <= z <= 1000 -> in_s 32 z) by (intros z Hz; unfold in_s; change (2 ^ (32 - 1)) with 2147483648; lia).
  assert (C : forall id op a b, -1000 <= id <= 1000 -> -1000 <= op <= 1000 -> -1000 <= a <= 1000 -> -1000 <= b <= 1000 ->
    asks (QCalculate id op a b) (f_calculate, [AInt32 id; new_work op a b])).
  { intros id op a b H1 H2 H3 H4. apply as_calculate; auto; [apply Forall_nil|vm_compute; reflexivity]. }
  apply Forall2_cons; [exact as_ping|]. apply Forall2_cons; [apply as_add; apply I; lia|].
  apply Forall2_cons; [apply (C 1 4 1 0); lia|]. apply Forall2_cons; [apply (C 1 2 15 10); lia|].
  apply Forall2_cons; [apply as_get, I; lia|]. apply Forall2_nil.
Qed.
Lemma perform_brief : forall f args, In (f, args) Perform -> brief args.
Proof. exact (proj1 C102_framed_ex). Qed.
Lemma perform_answers : forall h a h', dialogue h perform_requests a h' ->
  a = [Done; Number 2; Refused 4 "Cannot divide by 0"; Number 5; Entry 1 5] /\ h' = (1, 5) :: h.
Proof.
  intros h a h' D.
  assert (W : forall v z, in_s 32 v -> int32_of v z -> z = v).
  { intros v z Hv H. eapply int32_fun; [exact H|]. split; [exact Hv|exists 0; lia]. }
  assert (I2 : in_s 32 2) by (unfold in_s; cbn; lia). assert (I5 : in_s 32 5) by (unfold in_s; cbn; lia).
  inversion D as [|? ? a1 h1 ? l1 ? A1 D1]; subst. inversion A1; subst. clear A1 D.
  inversion D1 as [|? ? a2 h2 ? l2 ? A2 D2]; subst. inversion A2 as [|? ? ? z2 Z2| | | | |]; subst. clear A2 D1.
  apply W in Z2; [|exact I2]. subst z2.
  inversion D2 as [|? ? a3 h3 ? l3 ? A3 D3]; subst. inversion A3 as [| |? ? ? ? ? v3 z3 V3| |? ? ? ? ? w3 N3| |]; subst; [inversion V3; lia| |lia]. clear A3 D2.
  inversion D3 as [|? ? a4 h4 ? l4 ? A4 D4]; subst. inversion A4 as [| |? ? ? ? ? v4 z4 V4 Z4| |? ? ? ? ? w4 N4| |]; subst; [|lia]. clear A4 D3.
  assert (v4 = 5) as -> by (inversion V4; lia). apply W in Z4; [|exact I5]. subst z4.
  inversion D4 as [|? ? a5 h5 ? l5 ? A5 D5]; subst. inversion D5; subst. clear D4 D5.
  inversion A5 as [| | | | |? ? v5 V5|? ? N5]; subst; [|destruct (N5 5); left; reflexivity].
  inversion V5 as [|? ? ? ? ? Dd]; subst; [|destruct (Dd eq_refl)]. split; reflexivity.
Qed.

(** The calls [l] of a client on a processor whose log is [p], both with the protocols that these factories give a
    connection: the results and the log. *)
Section Session.
Variable intw : Z.
Variable x : ext.
Variable M : Z.
Variable cf fuel : nat.
Variable errtext : err -> bytes.
Variable cut : nat -> bytes -> list bytes.
Definition seen {SR SW} (r : outcome (list cres * @pair SR SW tlog)) : outcome (list cres * tlog) :=
  '(rs, st) <- r ;; Ok (rs, pr_h st).
Definition session (t : tfactory) (pf : pfactory) (l : list (func * list any)) (p : tlog) : outcome (list cres * tlog) :=
  match t, pf with
  | TFPlain, PFBinary sr sw => seen (calls (binaryR sr) (binaryW sw) nop (fun s => s) (fun s => s) x M cf fuel errtext
      tut_handle calculator bdrain bfeed cut 0 l (bstart p))
  | TFPlain, PFCompact => seen (calls compactR compactW nop cfreshR cfreshW x M cf fuel errtext
      tut_handle calculator cdrain cfeed cut 0 l (cstart p))
  | TFFramed, PFBinary sr sw => seen (calls (o_binaryR (read_all_over (framed_read intw)) sr)
      (o_binaryW framed_wr (copy_over framed_wr) sw) fflush (fun s => s) (fun s => s) x M cf fuel errtext
      tut_handle calculator fdrain ffeed cut 0 l (fstart p))
  | TFFramed, PFCompact => seen (calls (o_compactR (read_all_over (framed_read intw)) framed_unread) (o_compactW framed_wr)
      cfflush cffresh cffresh x M cf fuel errtext tut_handle calculator cfdrain cffeed cut 0 l (cfstart p))
  end.
(** They are the protocols Serve.v gives servers. *)
Lemma session_server : forall t pf, exists SR SW (R : rproto SR) (W : wproto SW) flush fr fw dr fd st new newr,
  GetReader intw t pf = MkReader SR R newr /\ (exists sent, GetWriter t pf = MkWriter SW W flush new sent) /\
  forall l p, session t pf l p = seen (calls R W flush fr fw x M cf fuel errtext tut_handle calculator dr fd cut 0 l (st p)).
Proof.
  intros [] [sr sw|]; eexists _, _, _, _, _, _, _, _, _, _, _, _; (split; [reflexivity|]); (split; [eexists; reflexivity|]); intros; reflexivity.
Qed.
End Session.

(** The program as client and the program as server, told to use the same protocol and both or neither to use
    frames: the five calls of the client get their answers, whatever the server has logged before and however the
    bytes arrive.  Missing: the JSON protocols (without frames: PropJsonTutorial.v, PropSimpleTutorial.v). *)
Theorem C112_talk_partial : forall gc gs oc os n tc ts pc ps,
  In (DPerform tc pc) (fst (main gc oc n)) -> In (DServe ts ps) (fst (main gs os n)) ->
  g_framed gc = g_framed gs ->
  (g_protocol gc = g_protocol gs \/ (exists s s', named s pc /\ named s' pc /\ g_protocol gc = lit s /\ g_protocol gs = lit s')) ->
  tc = ts /\ pc = ps /\
  forall pf intw x M cf fuel errtext cut p h, pc = MThrift pf ->
    32 <= intw -> orders x -> cuts cut -> (10 <= fuel)%nat -> fits p = true -> lean p = true -> logged p h ->
    exists rs p', session intw x M cf fuel errtext cut tc pf Perform p = Ok (rs, p') /\
      Forall2 shows [Done; Number 2; Refused 4 "Cannot divide by 0"; Number 5; Entry 1 5] rs /\
      logged p' ((1, 5) :: h).
Proof.
  intros gc gs oc os n tc ts pc ps Ic Is Ef Ep.
  apply (C112_only gc oc n tc pc) in Ic. apply (C112_only gs os n ts ps) in Is.
  destruct Ic as (sc & fc & (_ & _ & _ & Pc & Fc) & Nc & Wc). destruct Is as (ss & f2 & (_ & _ & _ & Ps & Fs) & Ns & Ws).
  assert (ss_p : pc = ps).
  { apply choose_named in Nc. apply choose_named in Ns. rewrite <- Pc in Nc. rewrite <- Ps in Ns.
    destruct Ep as [Ep|(s & s' & N & N' & E & E')]; [congruence|].
    apply choose_named in N'. rewrite <- E' in N'. congruence. }
  split; [rewrite Fc, Fs in Ef; subst; inversion Wc; inversion Ws; congruence|]. split; [exact ss_p|].
  intros pf intw x M cf fuel errtext cut p h -> Wi Ho Hc Hf Fp Lp L. unfold session.
  assert (Fin : forall SR SW (st : @pair SR SW tlog) rs r (a : list answer) h', r = Ok (rs, st) ->
    dialogue h perform_requests a h' -> Forall2 shows a rs -> logged (pr_h st) h' ->
    exists rs p', seen r = Ok (rs, p') /\
      Forall2 shows [Done; Number 2; Refused 4 "Cannot divide by 0"; Number 5; Entry 1 5] rs /\ logged p' ((1, 5) :: h)).
  { intros SR SW st rs r a h' -> D Sh L'. destruct (perform_answers _ _ _ D) as [-> ->].
    exists rs, (pr_h st). split; [reflexivity|]. split; assumption. }
  destruct tc, pf as [sr sw|].
  - assert (sw = true \/ sr = false) as Hst by (inversion Nc; auto).
    destruct (C102_binary_partial sr sw x M cf fuel errtext cut _ _ p h Ho Hst Hc Hf perform_asks Fp L)
      as (rs & st & a & h' & E & D & Sh & L' & _). eapply Fin; eassumption.
  - destruct (C102_compact_partial x M cf fuel errtext cut _ _ p h Ho Hc Hf perform_asks Fp L)
      as (rs & st & a & h' & E & D & Sh & L' & _). eapply Fin; eassumption.
  - assert (sw = true \/ sr = false) as Hst by (inversion Nc; auto).
    destruct (C102_framed_binary_partial intw sr sw x M cf fuel errtext cut _ _ p h Wi Ho Hst Hc Hf perform_asks perform_brief Fp Lp L)
      as (rs & st & a & h' & E & D & Sh & L' & _). eapply Fin; eassumption.
  - destruct (C102_framed_compact_partial intw x M cf fuel errtext cut _ _ p h Wi Ho Hc Hf perform_asks perform_brief Fp Lp L)
      as (rs & st & a & h' & E & D & Sh & L' & _). eapply Fin; eassumption.
Qed.
Print Assumptions C112_talk_partial.
Definition quiet : outside := MkOutside None None (fun _ => None) None None.
Example C112_case :
  let gc := MkFlags true false (lit "") true false false in
  let gs := MkFlags false true (lit "binary") true false false in
  asked true "" true gc /\ asked false "binary" true gs /\
  main gc quiet 1 = ([DPerform TFFramed (MThrift (PFBinary false true))], Exits 0) /\
  main gs quiet 3 = (repeat (DServe TFFramed (MThrift (PFBinary false true))) 3, Runs) /\
  (exists s s', named s (MThrift (PFBinary false true)) /\ named s' (MThrift (PFBinary false true)) /\
     g_protocol gc = lit s /\ g_protocol gs = lit s') /\
  fits [] = true /\ lean [] = true /\ logged [] [] /\ cuts (fun _ => pairs_of).
Proof.
  cbv zeta. split; [repeat split; reflexivity|]. split; [repeat split; reflexivity|]. split; [reflexivity|]. split; [reflexivity|].
  split; [exists ""%string, "binary"%string; repeat split; constructor|].
  split; [reflexivity|]. split; [reflexivity|]. split; [exact (proj1 (proj2 (proj2 (proj2 C102_framed_ex))))|exact pairs_cuts].
Qed.

(** *** What the program reports *)

(** Whatever goes wrong, if the program ends it ends with status 0: with a command line that makes no sense, a
    protocol it does not know, no connection, a failed Close. *)
Theorem C112_status_refuted :
  (forall g o n d s, main g o n = (d, Exits s) -> s = 0) /\
  (forall g, g_help g = false -> g_client g = g_server g -> forall o n, main g o n = ([DUsage], Exits 0)) /\
  (forall g, asked true "xml" (g_framed g) g -> forall o n, main g o n = ([DUnknown; DUsage], Exits 0)) /\
  (forall g s p o n e, named s p -> asked true s (g_framed g) g -> e_resolve o = None -> e_open o = Some e ->
     main g o n = ([DPrint e], Exits 0)).
Proof.
  split; [|split; [|split]].
  - intros g o n d s. unfold main, Usage. destruct (g_help g || _ || _); [intro E; injection E; auto|].
    destruct (choose (g_protocol g)) as [p|]; [|intro E; injection E; auto].
    destruct (g_client g); [intro E; injection E; auto|]. destruct (g_server g); [|intro E; injection E; auto].
    unfold RunServer. destruct (Simple _ _ _ _) as [d' [[]|]]; intro E; inversion E; reflexivity.
  - intros [c s pr fr ht he] Hh E o n. cbn in Hh, E. subst he s. destruct c; reflexivity.
  - intros g (Hh & Hc & Hs & Hp & _) o n. unfold main. rewrite Hh, Hc, Hs, Hp. reflexivity.
  - intros g s p o n e N (Hh & Hc & Hs & Hp & _) R O. unfold main, RunClient. rewrite Hh, Hc, Hs, Hp, (choose_named _ _ N), R, O. reflexivity.
Qed.
Print Assumptions C112_status_refuted.
(** --http changes nothing. *)
Theorem C112_http_refuted : forall c s pr fr he o n,
  main (MkFlags c s pr fr true he) o n = main (MkFlags c s pr fr false he) o n.
Proof. reflexivity. Qed.
Print Assumptions C112_http_refuted.
(** A server that cannot go on never ends: an address that does not resolve or is taken, or a Serve that returns an
    error, leaves main waiting; and a server never exits otherwise. *)
Theorem C112_waits_refuted : forall s framed p g o, named s p -> asked false s framed g ->
  (forall n d st, main g o n <> (d, Exits st)) /\
  (e_resolve o <> None \/ e_listen o <> None -> forall n, snd (main g o n) = Waits) /\
  (forall k, e_serve o k <> None -> exists n, forall m, (n <= m)%nat -> snd (main g o m) = Waits).
Proof.
  intros s framed p g o N (Hh & Hc & Hs & Hp & Hf).
  assert (M : forall n, main g o n = (let '(d, f) := RunServer o (if g_framed g then TFFramed else TFPlain) p n in
    (d, match f with Some f => f | None => Exits 0 end))).
  { intro n. unfold main. rewrite Hh, Hc, Hs, Hp, (choose_named _ _ N). reflexivity. }
  assert (Sm : forall n, snd (Simple o (if g_framed g then TFFramed else TFPlain) p n) <> Some true).
  { intro n. unfold Simple. destruct (e_resolve o); [discriminate|]. destruct (e_listen o); [discriminate|].
    destruct (serve_for _ _ _ _ _) as [d [[]|]]; discriminate. }
  split; [|split].
  - intros n d st E. rewrite M in E. unfold RunServer in E. specialize (Sm n).
    destruct (Simple _ _ _ n) as [d' [[]|]]; [destruct (Sm eq_refl)| |]; discriminate.
  - intros Hbad n. rewrite M. unfold RunServer, Simple. destruct (e_resolve o) as [e|]; [reflexivity|].
    destruct (e_listen o) as [e|]; [reflexivity|]. destruct Hbad as [B|B]; destruct (B eq_refl).
  - intros k Hk. exists (S k). intros m Hm. rewrite M. unfold RunServer, Simple.
    destruct (e_resolve o) as [e|]; [reflexivity|]. destruct (e_listen o) as [e|]; [reflexivity|].
    assert (G : forall m j, (j <= k)%nat -> (S k <= j + m)%nat ->
      snd (serve_for o (if g_framed g then TFFramed else TFPlain) p m j) = Some tt).
    { clear - Hk. induction m as [|m IH]; intros j Hj Hm; [lia|]. cbn [serve_for].
      destruct (e_serve o j) as [e|] eqn:Ej; [reflexivity|].
      destruct (Nat.eq_dec j k) as [-> |Nj]; [destruct (Hk Ej)|].
      specialize (IH (S j) ltac:(lia) ltac:(lia)). destruct (serve_for _ _ _ m (S j)) as [d r]. exact IH. }
    specialize (G m 0%nat ltac:(lia) ltac:(lia)). destruct (serve_for _ _ _ m 0) as [d r]. cbn [snd] in G. subst r. reflexivity.
Qed.
Print Assumptions C112_waits_refuted.
Example C112_waits_case : exists g o, asked false "compact" true g /\ e_serve o 2 <> None /\ e_serve o 0 = None /\
  main g o 9 = ([DServe TFFramed (MThrift PFCompact); DServe TFFramed (MThrift PFCompact); DServe TFFramed (MThrift PFCompact);
                 DPrint EEof], Waits).
Proof.
  exists (MkFlags false true (lit "compact") true false false),
    (MkOutside None None (fun n => if (n =? 2)%nat then Some EEof else None) None None).
  split; [repeat split; reflexivity|]. split; [discriminate|]. split; reflexivity.
Qed.
