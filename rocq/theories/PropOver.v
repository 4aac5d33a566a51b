(** Properties of the protocols over the library's own transports: C75, C76. *)
From Coq Require Import ZArith List Bool Lia.
From Coq Require Import ZifyBool ZifyNat.
From Verif Require Import Base Errors Transport Proto Arith TransportProofs Binary Compact Buffer BufIO
  Framed FramedProofs MemBuffer IOStream Http Socket ReadProg WriteErr Over Het OverSim OverInst.
From Verif Require Import TField GoVal Compare TMap Values Gen PropFramed PropGen.
Import ListNotations.
Open Scope Z_scope.

(** What a run gave, without the state it left. *)
Definition answer {A S} (o : outcome (A * S)) : outcome A :=
  match o with Ok (a, _) => Ok a | Panic => Panic | OutOfFuel => OutOfFuel end.
Lemma hsame_answer : forall S1 S2 A (sim : S1 -> S2 -> Prop) (o1 : outcome (A * S1)) (o2 : outcome (A * S2)),
  hsame false sim o1 o2 -> answer o1 = answer o2.
Proof.
  intros S1 S2 A sim [[a1 s1]| |] [[a2 s2]| |] H; cbn in *; try contradiction; try discriminate; auto.
  destruct H as [-> _]. reflexivity.
Qed.

(** ** C75 *)

(** The library's transports as they are made, with the bytes the peer has sent through them: the
    payloads of frames (the last may be incomplete), or the bytes of the wrapped reader, which
    delivers them in pieces of any sizes. *)
Inductive incoming : forall T, (nat -> T -> bytes * option err * T) -> (T -> nat) -> T -> bytes -> Prop :=
| in_framed : forall intw w r ps tail, 32 <= intw -> benign r ->
    content r = concat (map frame ps) ++ tail -> Forall payload_ok ps -> cut tail ->
    incoming framed (framed_read intw) framed_unread (NewTFramedTransport w r) (concat ps)
| in_ios : forall v closer flusher r w, benign r -> v = VR \/ v = VRAndW \/ v = VRW ->
    incoming ios ios_read ios_unread (NewTIOStreamTransport v closer flusher r w) (content r)
| in_mem : forall b, incoming membuf bRead (fun b => length (bBytes b)) (bNew b) b
| in_http : forall r, benign r -> incoming http http_read http_unread (NewTHttpClient r) (content r)
| in_sock : forall r, benign r -> incoming (option rt) sock_read sock_unread (Some r) (content r).

Lemma incoming_inv : forall T rd un s C, incoming T rd un s C ->
  exists inv : T -> bytes -> Prop, delivers rd inv /\ inv s C /\ (forall s C, inv s C -> (length C <= un s)%nat).
Proof.
  intros T rd un s C H. destruct H.
  - exists framed_holds. split; [apply framed_delivers; assumption|]. split; [|exact framed_unread_ok].
    exists [], ps, tail. split; [|reflexivity]. unfold rd_inv. cbn. repeat split; auto. apply bNew_ok.
  - exists ios_holds. split; [exact ios_delivers|]. split; [|exact ios_unread_ok].
    destruct H0 as [ -> | [ -> | -> ]]; unfold ios_holds; cbn; auto.
  - exists mem_holds. split; [exact mem_delivers|]. split; [|exact mem_unread_ok].
    split; [apply bNew_ok|reflexivity].
  - exists http_holds. split; [exact http_delivers|]. split; [|exact http_unread_ok]. cbn. auto.
  - exists sock_holds. split; [exact sock_delivers|]. split; [|exact sock_unread_ok]. cbn. auto.
Qed.

(** Reading through any of them gives what reading the bytes directly gives: any program of calls
    of the protocol, and generated Read methods. *)
Theorem C75_binary : forall T rd un s C, incoming T rd un s C ->
  forall strict r, benign r -> content r = C ->
  (forall X (p : rprog X), answer (run (o_binaryR (read_all_over rd) strict) p s) = answer (run (binaryR strict) p r)) /\
  (forall x M cf fuel t, answer (gread (o_binaryR (read_all_over rd) strict) x M cf fuel t s) =
                         answer (gread (binaryR strict) x M cf fuel t r)).
Proof.
  intros T rd un s C H strict r B X. destruct (incoming_inv _ _ _ _ _ H) as (inv & D & I & U).
  assert (E : rsim inv s r) by (split; [exact B|rewrite X; exact I]).
  pose proof (over_binaryR false rd inv D un U strict) as RR.
  split; intros.
  - eapply hsame_answer. apply (hrun false (rsim inv) _ _ RR). exact E.
  - eapply hsame_answer. apply (proj1 (hgread false (rsim inv) _ _ RR x M cf fuel)). exact E.
Qed.
Print Assumptions C75_binary.
Theorem C75_compact : forall T rd un s C, incoming T rd un s C ->
  forall r c, benign r -> content r = C ->
  (forall X (p : rprog X), answer (run (o_compactR (read_all_over rd) un) p (s, c)) = answer (run compactR p (r, c))) /\
  (forall x M cf fuel t, answer (gread (o_compactR (read_all_over rd) un) x M cf fuel t (s, c)) =
                         answer (gread compactR x M cf fuel t (r, c))).
Proof.
  intros T rd un s C H r c B X. destruct (incoming_inv _ _ _ _ _ H) as (inv & D & I & U).
  assert (E : rsimc inv (s, c) (r, c)) by (split; [split; [exact B|cbn [fst]; rewrite X; exact I]|reflexivity]).
  pose proof (over_compactR false rd inv D un U) as RR.
  split; intros.
  - eapply hsame_answer. apply (hrun false (rsimc inv) _ _ RR). exact E.
  - eapply hsame_answer. apply (proj1 (hgread false (rsimc inv) _ _ RR x M cf fuel)). exact E.
Qed.
Print Assumptions C75_compact.

(** A generated struct in two frames, cut in the middle of a field header, arriving byte by byte,
    and part of a third frame; the same from the other transports. *)
Example C75_case :
  let ps := [firstn 7 b_outer; skipn 7 b_outer] in
  let f := NewTFramedTransport (MkWt [] []) (map (fun c => ([c], None)) (concat (map frame ps) ++ [0; 0; 0; 9; 77])) in
  let whole := [(b_outer, None)] in
  incoming framed (framed_read 64) framed_unread f b_outer /\
  incoming ios ios_read ios_unread (NewTIOStreamTransport VRAndW false false whole (MkWt [] [])) b_outer /\
  incoming membuf bRead (fun b => length (bBytes b)) (bNew b_outer) b_outer /\
  incoming http http_read http_unread (NewTHttpClient whole) b_outer /\
  incoming (option rt) sock_read sock_unread (Some whole) b_outer /\
  exists v, answer (gread (o_binaryR (read_all_over (framed_read 64)) true) ext0 64 5 30 ty_outer f) = Ok (inl v) /\
  answer (gread (binaryR true) ext0 64 5 30 ty_outer whole) = Ok (inl v).
Proof.
  assert (W : benign [(b_outer, None)]) by (repeat constructor; discriminate).
  cbv zeta.
  split.
  { change b_outer with (concat [firstn 7 b_outer; skipn 7 b_outer]) at 3.
    apply in_framed with (tail := [0; 0; 0; 9; 77]); [lia| | | |].
    - apply Forall_map, Forall_forall. intros c _. split; [discriminate|reflexivity].
    - unfold content. rewrite map_map. cbn [fst]. generalize (concat (map frame [firstn 7 b_outer; skipn 7 b_outer]) ++ [0; 0; 0; 9; 77]).
      intro l. induction l as [|c l IH]; [reflexivity|]. cbn. rewrite IH. reflexivity.
    - repeat constructor; cbn; try discriminate; lia.
    - exists (repeat 77 9), (repeat 77 8). cbn. split; [lia|]. split; [reflexivity|discriminate]. }
  split; [apply (in_ios VRAndW false false [(b_outer, None)]); auto|].
  split; [apply in_mem|]. split; [apply (in_http [(b_outer, None)] W)|]. split; [apply (in_sock [(b_outer, None)] W)|].
  eexists. split; vm_compute; reflexivity.
Qed.

(** ** C76 *)

(** Transports to write to: Write, io.CopyN to it, Flush, the state it is made in, and what the
    other side has got, in terms of the bytes written and flushed. *)
Inductive outgoing : forall T, (bytes -> T -> outcome (Z * option err * T)) -> (bytes -> T -> outcome (option err * T)) ->
    (T -> outcome (option err * T)) -> T -> (T -> bytes -> Prop) -> Prop :=
| out_framed : forall o0 r,
    outgoing framed framed_wr (copy_over framed_wr) (fun f => Ok (framed_flush None f))
      (NewTFramedTransport (MkWt o0 []) r) (fun f o => w_out (f_w f) = o0 ++ frame o)
| out_mem : outgoing membuf mem_wr mem_cp (fun b => Ok (None, b)) (bNew []) (fun b o => bBytes b = o)
| out_http : forall body,
    outgoing http http_write (copy_over http_write) (http_flush (PostOk 200 body))
      NewTHttpPostClient (fun h o => h_posts h = [o] /\ h_resp h = Some body)
| out_sock : forall a,
    outgoing sock sock_wr (copy_over sock_wr) (fun s => Ok (sock_flush s))
      (NewTSocketConn a []) (fun s o => w_out (conn_wt 0 (k_conns s)) = o)
| out_nsock : forall a,
    outgoing sock nsock_wr (copy_over nsock_wr) (fun s => Ok (nsock_flush s))
      (NewTSocketConn a []) (fun s o => w_out (conn_wt 0 (k_conns s)) = o).

Lemma outgoing_inv : forall T wr cp fl s0 got, outgoing T wr cp fl s0 got ->
  exists inv : T -> bytes -> Prop, accepts false wr inv /\ inv s0 [] /\
    (forall p s o, inv s o -> exists s', cp p s = Ok (None, s') /\ inv s' (o ++ p)) /\
    (forall s o, inv s o -> exists s', fl s = Ok (None, s') /\ got s' o).
Proof.
  intros T wr cp fl s0 got H. destruct H.
  - exists (framed_takes (MkWt o0 [])). pose proof (framed_accepts false (MkWt o0 [])) as A.
    split; [exact A|]. split; [split; [apply bNew_ok|split; reflexivity]|].
    split; [apply (copy_over_accepts _ _ _ _ A)|].
    intros f o (K & B & Ww). destruct (framed_flush_ok f K) as (f' & F & _); [rewrite Ww; reflexivity|].
    exists f'. rewrite F. split; [reflexivity|].
    destruct (framed_flush_spec _ _ _ _ K F) as (_ & _ & _ & Q). destruct (Q eq_refl) as [Q1 _].
    rewrite Q1, Ww, B. reflexivity.
  - exists mem_holds. split; [apply mem_accepts|]. split; [split; [apply bNew_ok|reflexivity]|].
    split; [exact mem_copies|]. intros b o [_ E]. eauto.
  - exists (http_takes []). pose proof (http_accepts false []) as A.
    split; [exact A|]. split; [split; [reflexivity|cbn; split; [apply bNew_ok|reflexivity]]|].
    split; [apply (copy_over_accepts _ _ _ _ A)|].
    intros h o (P & I). unfold http_flush. destruct (h_buf h); [|contradiction].
    destruct I as [_ E]. cbn [Z.eqb]. replace (200 =? 200) with true by reflexivity.
    eexists. split; [reflexivity|]. cbn. rewrite P, E. auto.
  - exists (sock_takes 0 [MkWt [] []]). pose proof (sock_accepts false 0 [MkWt [] []]) as A.
    split; [exact A|]. split; [split; [reflexivity|split; [apply bNew_ok|split; reflexivity]]|].
    split; [apply (copy_over_accepts _ _ _ _ A)|].
    intros s o (N & K & B & Cs). unfold sock_flush. rewrite N, Cs.
    unfold bWriteTo. destruct (_ <? _)%nat eqn:L.
    + cbn. eexists. split; [reflexivity|]. cbn. rewrite B. reflexivity.
    + cbn. eexists. split; [reflexivity|]. cbn. rewrite <- B. unfold bBytes. rewrite skipn_all2 by lia. reflexivity.
  - exists (nsock_takes 0 []). pose proof (nsock_accepts false 0 []) as A.
    split; [exact A|]. split; [unfold nsock_takes; cbn; auto|].
    split; [apply (copy_over_accepts _ _ _ _ A)|].
    intros s o (N & L & S0 & X). unfold nsock_flush. rewrite N. exists s. split; [reflexivity|exact X].
Qed.

(** What the two sides of C76 have in common: the calls return the same, and once Flush is called
    the other side has got exactly the bytes a plain transport [w] has got. *)
Definition passed {T} (fl : T -> outcome (option err * T)) (got : T -> bytes -> Prop)
    (o1 : outcome (option err * T)) (o2 : outcome (option err * wt)) : Prop :=
  match o1, o2 with
  | Ok (e1, s), Ok (e2, w) => e1 = e2 /\ exists s', fl s = Ok (None, s') /\ got s' (w_out w)
  | Panic, Panic | OutOfFuel, OutOfFuel => True
  | _, _ => False
  end.
(** The same for the compact protocol, whose state goes along. *)
Definition drop_state {T} (o : outcome (option err * (T * cstate))) : outcome (option err * T) :=
  match o with Ok (e, (s, _)) => Ok (e, s) | Panic => Panic | OutOfFuel => OutOfFuel end.
Lemma hsame_passed : forall T (inv : T -> bytes -> Prop) fl got o1 o2,
  (forall s o, inv s o -> exists s', fl s = Ok (None, s') /\ got s' o) ->
  hsame false (wsim inv) o1 o2 -> passed fl got o1 o2.
Proof.
  intros T inv fl got [[e1 s1]| |] [[e2 s2]| |] F H; cbn in *; try contradiction; try discriminate; auto.
  destruct H as [-> [_ I]]. auto.
Qed.
Lemma hsame_passedc : forall T (inv : T -> bytes -> Prop) fl got o1 o2,
  (forall s o, inv s o -> exists s', fl s = Ok (None, s') /\ got s' o) ->
  hsame false (wsimc inv) o1 o2 -> passed fl got (drop_state o1) (drop_state o2).
Proof.
  intros T inv fl got [[e1 [s1 c1]]| |] [[e2 [s2 c2]]| |] F H; cbn in *; try contradiction; try discriminate; auto.
  destruct H as [-> [[_ I] _]]. auto.
Qed.
Lemma hwexec : forall pan S1 S2 (sim : S1 -> S2 -> Prop) W1 W2, wrel pan sim W1 W2 ->
  forall cs, hresp pan sim (wseqs (map (wexec W1) cs)) (wseqs (map (wexec W2) cs)).
Proof.
  intros pan S1 S2 sim W1 W2 [] cs. apply h_seqs. intro c. destruct c; cbn [wexec]; auto.
Qed.

(** Writing through any of them: any sequence of calls of the protocol up to the first error, or a
    generated Write method. *)
Theorem C76_binary : forall T wr cp fl s0 got, outgoing T wr cp fl s0 got -> forall strict,
  (forall cs, passed fl got (wseqs (map (wexec (o_binaryW wr cp strict)) cs) s0)
                            (wseqs (map (wexec (binaryW strict)) cs) (MkWt [] []))) /\
  (forall x fuel t v, passed fl got (gwrite (o_binaryW wr cp strict) x fuel t v s0)
                                    (gwrite (binaryW strict) x fuel t v (MkWt [] []))).
Proof.
  intros T wr cp fl s0 got H strict. destruct (outgoing_inv _ _ _ _ _ _ H) as (inv & A & I & CP & FL).
  assert (E : wsim inv s0 (MkWt [] [])) by (split; [reflexivity|exact I]).
  pose proof (over_binaryW false wr cp inv A CP strict) as WW.
  split; intros; (eapply hsame_passed; [exact FL|]).
  - apply (hwexec false _ _ (wsim inv) _ _ WW). exact E.
  - apply (proj1 (hgwrite false (wsim inv) _ _ WW x fuel)). exact E.
Qed.
Print Assumptions C76_binary.
Theorem C76_compact : forall T wr cp fl s0 got, outgoing T wr cp fl s0 got -> forall c,
  (forall cs, passed fl got (drop_state (wseqs (map (wexec (o_compactW wr)) cs) (s0, c)))
                            (drop_state (wseqs (map (wexec compactW) cs) (MkWt [] [], c)))) /\
  (forall x fuel t v, passed fl got (drop_state (gwrite (o_compactW wr) x fuel t v (s0, c)))
                                    (drop_state (gwrite compactW x fuel t v (MkWt [] [], c)))).
Proof.
  intros T wr cp fl s0 got H c. destruct (outgoing_inv _ _ _ _ _ _ H) as (inv & A & I & CP & FL).
  assert (E : wsimc inv (s0, c) (MkWt [] [], c)) by (split; [split; [reflexivity|exact I]|reflexivity]).
  pose proof (over_compactW false false wr inv A) as WW.
  split; intros; (eapply hsame_passedc; [exact FL|]).
  - apply (hwexec false _ _ (wsimc inv) _ _ WW). exact E.
  - apply (proj1 (hgwrite false (wsimc inv) _ _ WW x fuel)). exact E.
Qed.
Print Assumptions C76_compact.

(** A generated struct written to each of them. *)
Example C76_case : forall body r a,
  outgoing framed framed_wr (copy_over framed_wr) (fun f => Ok (framed_flush None f))
    (NewTFramedTransport (MkWt [7] []) r) (fun f o => w_out (f_w f) = [7] ++ frame o) /\
  outgoing membuf mem_wr mem_cp (fun b => Ok (None, b)) (bNew []) (fun b o => bBytes b = o) /\
  outgoing http http_write (copy_over http_write) (http_flush (PostOk 200 body))
    NewTHttpPostClient (fun h o => h_posts h = [o] /\ h_resp h = Some body) /\
  outgoing sock sock_wr (copy_over sock_wr) (fun s => Ok (sock_flush s))
    (NewTSocketConn a []) (fun s o => w_out (conn_wt 0 (k_conns s)) = o) /\
  gwrite (binaryW true) ext0 20 ty_outer v_outer (MkWt [] []) = Ok (None, MkWt b_outer []) /\
  exists f f', gwrite (o_binaryW framed_wr (copy_over framed_wr) true) ext0 20 ty_outer v_outer
      (NewTFramedTransport (MkWt [7] []) r) = Ok (None, f) /\
    framed_flush None f = (None, f') /\ w_out (f_w f') = 7 :: 0 :: 0 :: 0 :: 94 :: b_outer.
Proof.
  intros body r a. split; [apply (out_framed [7])|]. split; [apply out_mem|]. split; [apply out_http|].
  split; [apply out_sock|]. split; [vm_compute; reflexivity|].
  eexists _, _. split; [vm_compute; reflexivity|]. split; vm_compute; reflexivity.
Qed.

(** *** TIOStreamTransport *)
(** Made over a writer: what it got after Flush. *)
Definition ios_out (v : variant) (closer flusher : bool) (r : rt) : ios := NewTIOStreamTransport v closer flusher r (MkWt [] []).
Definition ios_fl (s : ios) : outcome (option err * ios) := Ok (ios_flush None s).
Definition ios_got (s : ios) (o : bytes) : Prop := i_out s = o.
Lemma ios_start : forall v closer flusher r, v = VW \/ v = VRAndW \/ v = VRW -> ios_takes [] (ios_out v closer flusher r) [].
Proof.
  intros v closer flusher r V. unfold ios_takes, ios_out. split; [apply new_ok|].
  destruct V as [ -> | [ -> | -> ]]; cbn; repeat split; discriminate.
Qed.
Lemma ios_flushed : forall s o, ios_takes [] s o -> exists s', ios_fl s = Ok (None, s') /\ ios_got s' o.
Proof.
  intros s o (K & E & S0 & W & X). unfold ios_fl, ios_got.
  destruct (ios_flush None s) as [e s'] eqn:F.
  assert (e = None).
  { unfold ios_flush in F. destruct (i_writer s); [congruence| |].
    - destruct (bw_flush_benign (i_bw s) E S0) as (b' & Hb & _). rewrite Hb in F. injection F as <- _. reflexivity.
    - injection F as <- _. destruct (i_flusher s); reflexivity. }
  subst e. destruct (ios_op_stream (IFlush None) s [] 0 s' K W I) as (_ & _ & X2 & P).
  { cbn [ios_op]. rewrite F. reflexivity. }
  exists s'. split; [reflexivity|]. unfold iwrites in X2. cbn in X2. rewrite app_nil_r in X2.
  rewrite P, app_nil_r in X2. rewrite X2, X. reflexivity.
Qed.
(** The compact protocol is carried by it as by the others. *)
Theorem C76_ios_compact : forall v closer flusher r, v = VW \/ v = VRAndW \/ v = VRW -> forall c,
  (forall cs, passed ios_fl ios_got (drop_state (wseqs (map (wexec (o_compactW ios_write)) cs) (ios_out v closer flusher r, c)))
                            (drop_state (wseqs (map (wexec compactW) cs) (MkWt [] [], c)))) /\
  (forall x fuel t a, passed ios_fl ios_got (drop_state (gwrite (o_compactW ios_write) x fuel t a (ios_out v closer flusher r, c)))
                                    (drop_state (gwrite compactW x fuel t a (MkWt [] [], c)))).
Proof.
  intros v closer flusher r V c.
  assert (E : wsimc (ios_takes []) (ios_out v closer flusher r, c) (MkWt [] [], c))
    by (split; [split; [reflexivity|apply ios_start, V]|reflexivity]).
  pose proof (over_compactW false true ios_write (ios_takes []) (ios_accepts [])) as WW.
  split; intros; (eapply hsame_passedc; [exact ios_flushed|]).
  - apply (hwexec false _ _ (wsimc (ios_takes [])) _ _ WW). exact E.
  - apply (proj1 (hgwrite false (wsimc (ios_takes [])) _ _ WW x fuel)). exact E.
Qed.
Print Assumptions C76_ios_compact.
(** The binary protocol too, unless it panics. *)
Theorem C76_ios_binary_partial : forall v closer flusher r, v = VW \/ v = VRAndW \/ v = VRW -> forall strict,
  (forall cs, let o := wseqs (map (wexec (o_binaryW ios_write (copy_over ios_write) strict)) cs) (ios_out v closer flusher r) in
     o <> Panic -> passed ios_fl ios_got o (wseqs (map (wexec (binaryW strict)) cs) (MkWt [] []))) /\
  (forall x fuel t a, let o := gwrite (o_binaryW ios_write (copy_over ios_write) strict) x fuel t a (ios_out v closer flusher r) in
     o <> Panic -> passed ios_fl ios_got o (gwrite (binaryW strict) x fuel t a (MkWt [] []))).
Proof.
  intros v closer flusher r V strict.
  assert (E : wsim (ios_takes []) (ios_out v closer flusher r) (MkWt [] [])) by (split; [reflexivity|apply ios_start, V]).
  pose proof (over_binaryW true ios_write (copy_over ios_write) (ios_takes []) (ios_accepts [])
    (copy_over_accepts _ _ _ _ (ios_accepts [])) strict) as WW.
  assert (G : forall o1 o2, hsame true (wsim (ios_takes [])) o1 o2 -> o1 <> Panic -> passed ios_fl ios_got o1 o2).
  { intros [[e1 s1]| |] [[e2 s2]| |] Hs N; cbn in *; try contradiction; try congruence; auto.
    destruct Hs as [-> [_ Hi]]. split; [reflexivity|]. apply ios_flushed, Hi. }
  split; intros; (apply G; [|assumption]).
  - apply (hwexec true _ _ (wsim (ios_takes [])) _ _ WW). exact E.
  - apply (proj1 (hgwrite true (wsim (ios_takes [])) _ _ WW x fuel)). exact E.
Qed.
Print Assumptions C76_ios_binary_partial.
(** Which it does for an empty binary, e.g. in a generated struct, while a plain transport takes
    it: the transport's Write panics when the wrapped writer takes nothing and reports no error. *)
Theorem C76_ios_empty_binary_refuted : exists t a w, 
  gwrite (binaryW true) ext0 20 t a (MkWt [] []) = Ok (None, w) /\
  forall v closer flusher r, v = VW \/ v = VRAndW \/ v = VRW ->
    gwrite (o_binaryW ios_write (copy_over ios_write) true) ext0 20 t a (ios_out v closer flusher r) = Panic.
Proof.
  exists (TyStruct [83] [Mem 1 [98] false None TyBinary]),
         (AStruct 0 [83] (fc_of [Mem 1 [98] false None TyBinary]) [(1, ABytes [])]).
  eexists. split; [vm_compute; reflexivity|].
  intros v closer flusher r [ -> | [ -> | -> ]]; vm_compute; reflexivity.
Qed.
Print Assumptions C76_ios_empty_binary_refuted.

Example C76_ios_case : forall v closer flusher r, v = VW \/ v = VRAndW \/ v = VRW -> exists s s',
  gwrite (o_binaryW ios_write (copy_over ios_write) true) ext0 20 ty_outer v_outer (ios_out v closer flusher r) = Ok (None, s) /\
  ios_flush None s = (None, s') /\ i_out s' = b_outer.
Proof.
  intros v closer flusher r [ -> | [ -> | -> ]]; destruct flusher; eexists _, _;
    (split; [vm_compute; reflexivity|split; vm_compute; reflexivity]).
Qed.
