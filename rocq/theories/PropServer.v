(** Properties of the servers: C35. *)
From Coq Require Import ZArith List Bool Lia.
From Coq Require Import ZifyBool ZifyNat.
From Verif Require Import Base Errors ServerSocket Server.
Import ListNotations.
Open Scope Z_scope.

(** ** C35 *)
Lemma C35_aux : forall threaded kind ls s k, run ls (NewServer threaded kind) = Some s ->
  (count (is_out k) ls <= 1)%nat /\ (count (is_in k) ls <= 1)%nat /\ quiet_after_close k ls /\
  forall h, nth_error (v_handlers s) k = Some h ->
    (h_pc h = HDone -> count (is_out k) ls = b2n (h_out h) /\ count (is_in k) ls = b2n (h_in h)) /\
    (h_pc h = HLoop -> count (is_out k) ls = O /\ count (is_in k) ls = O) /\
    (v_crashed s = false -> h_pc h <> HLoop -> h_pc h <> HDone ->
       step (LCloseOut k) s <> None \/ step (LCloseIn k) s <> None).
Proof.
  intros threaded kind ls s k R. destruct (inv_run _ _ _ _ R k) as [A Q].
  assert (L : (count (is_out k) ls <= 1)%nat /\ (count (is_in k) ls <= 1)%nat).
  { destruct (nth_error (v_handlers s) k) as [h|]; [|lia]. unfold closes in A.
    destruct (h_pc h), (h_in h), (h_out h); cbn in A; lia. }
  destruct L as [L1 L2]. split; [assumption|]. split; [assumption|]. split; [assumption|].
  intros h N. rewrite N in A. unfold closes in A. split; [|split].
  - intro P. rewrite P in A. assumption.
  - intro P. rewrite P in A. assumption.
  - intros C P1 P2. pose proof (close_enabled s k h C N) as E. destruct (h_pc h); try congruence; auto.
Qed.
(** In every interleaving of Serve, any number of Stop calls and the request loops: each transport
    of a connection is closed at most once and never while the loop still runs; requests are no
    longer processed after a close; a connection that is finished has had each of its (non-nil)
    transports closed exactly once; one whose loop has ended can always go on closing. *)
Theorem C35_closed_exactly_once : forall threaded kind ls s k,
  run ls (NewServer threaded kind) = Some s ->
  (count (is_out k) ls <= 1)%nat /\ (count (is_in k) ls <= 1)%nat /\ quiet_after_close k ls /\
  forall h, nth_error (v_handlers s) k = Some h ->
    (h_pc h = HDone -> count (is_out k) ls = b2n (h_out h) /\ count (is_in k) ls = b2n (h_in h)) /\
    (h_pc h = HLoop -> count (is_out k) ls = O /\ count (is_in k) ls = O) /\
    (v_crashed s = false -> h_pc h <> HLoop -> h_pc h <> HDone ->
       step (LCloseOut k) s <> None \/ step (LCloseIn k) s <> None).
Proof. exact C35_aux. Qed.
Print Assumptions C35_closed_exactly_once.

Definition accept_one : label := LAccept None None (Some (true, true)).
(** A Stop between the test of the flag and Accept: TServerSocket opens a new listener and the
    connection is served. *)
Theorem C35_stop_refuted : exists ls1 ls2 s1 s2,
  ls1 = [LServe; LListen None; LCheck; LStop; LInterrupt None None] /\
  ls2 = [accept_one; LProcess 0 (PRet true false)] /\
  run ls1 (NewServer true KServerSocket) = Some s1 /\ v_handlers s1 = [] /\ v_stops s1 = O /\
  run ls2 s1 = Some s2 /\ v_handlers s2 = [MkHandler HLoop true true false].
Proof. eexists _, _, _, _. split; [reflexivity|]. split; [reflexivity|]. repeat split; vm_compute; reflexivity. Qed.
Print Assumptions C35_stop_refuted.
(** A Stop before Serve is forgotten. *)
Theorem C35_stop_before_serve_refuted : exists ls s,
  ls = [LStop; LInterrupt None None; LServe; LListen None; LCheck; accept_one; LProcess 0 (PRet true false)] /\
  run ls (NewServer true KNonblocking) = Some s /\ length (v_handlers s) = 1%nat.
Proof. eexists _, _. split; [reflexivity|]. split; vm_compute; reflexivity. Qed.
Print Assumptions C35_stop_before_serve_refuted.

Lemma C35_aux2 : forall threaded kind ls1 ls2 s1 s2,
  run (ls1 ++ [LStop]) (NewServer threaded kind) = Some s1 -> run ls2 s1 = Some s2 ->
  existsb is_serve ls2 = false ->
  (length (v_handlers s2) <= S (length (v_handlers s1)))%nat /\
  (v_main s1 <> MAccept -> length (v_handlers s2) <= length (v_handlers s1))%nat.
Proof.
  intros threaded kind ls1 ls2 s1 s2 R1 R2 N.
  assert (V : v_stopped s1 = true).
  { rewrite run_app in R1. destruct (run ls1 _) as [s0|]; [|discriminate]. cbn in R1.
    unfold step in R1. destruct (v_crashed s0); [discriminate|]. injection R1 as <-. reflexivity. }
  pose proof (after_stop _ _ _ R2 N V) as L. split.
  - destruct (v_main s1); lia.
  - intro M. destruct (v_main s1); try congruence; lia.
Qed.
(** What holds for every server transport: after Stop has set the flag at most one more
    connection is taken on, and only if Serve was already waiting in Accept. *)
Theorem C35_stop_partial : forall threaded kind ls1 ls2 s1 s2,
  run (ls1 ++ [LStop]) (NewServer threaded kind) = Some s1 -> run ls2 s1 = Some s2 ->
  existsb is_serve ls2 = false ->
  (length (v_handlers s2) <= S (length (v_handlers s1)))%nat /\
  (v_main s1 <> MAccept -> length (v_handlers s2) <= length (v_handlers s1))%nat.
Proof. exact C35_aux2. Qed.
Print Assumptions C35_stop_partial.

Lemma C35_aux3 : forall threaded ls1 s1 cc s1' ls2 s2,
  run ls1 (NewServer threaded KNonblocking) = Some s1 -> v_stopped s1 = true ->
  step (LInterrupt None cc) s1 = Some s1' -> run ls2 s1' = Some s2 -> existsb is_serve ls2 = false ->
  length (v_handlers s2) = length (v_handlers s1).
Proof.
  intros threaded ls1 s1 cc s1' ls2 s2 R1 V S R2 N.
  pose proof (kind_const _ _ _ R1) as K. cbn in K.
  unfold step in S. destruct (v_crashed s1); [discriminate|]. destruct (v_stops s1); [discriminate|].
  injection S as <-. rewrite K in R2. cbn [do_interrupt] in R2.
  assert (L : ss_listener (snd (ss_close None cc (v_sock s1))) = false).
  { unfold ss_close. destruct (ss_listener (v_sock s1)), (ss_conn (v_sock s1)), cc; reflexivity. }
  refine (after_interrupt _ _ _ R2 N K V _). intros _. exact L.
Qed.
(** With TNonblockingServerSocket: once Interrupt of a Stop has closed the listener no connection
    is taken on. *)
Theorem C35_stop_nonblocking_socket_partial : forall threaded ls1 s1 cc s1' ls2 s2,
  run ls1 (NewServer threaded KNonblocking) = Some s1 -> v_stopped s1 = true ->
  step (LInterrupt None cc) s1 = Some s1' -> run ls2 s1' = Some s2 -> existsb is_serve ls2 = false ->
  length (v_handlers s2) = length (v_handlers s1).
Proof. exact C35_aux3. Qed.
Print Assumptions C35_stop_nonblocking_socket_partial.

Lemma C35_aux4 : forall kind ls s i j hi hj, run ls (NewServer false kind) = Some s ->
  nth_error (v_handlers s) i = Some hi -> h_pc hi <> HDone ->
  nth_error (v_handlers s) j = Some hj -> h_pc hj <> HDone -> i = j.
Proof.
  intros kind ls s i j hi hj R Ni Pi Nj Pj.
  destruct (seq_run _ _ _ R) as [I T].
  - intros _ k h G. destruct k; discriminate.
  - specialize (I T). pose proof (I _ _ Ni Pi). pose proof (I _ _ Nj Pj). congruence.
Qed.
(** TSimpleServer works on one connection at a time. *)
Theorem C35_simple_one_at_a_time : forall kind ls s i j hi hj, run ls (NewServer false kind) = Some s ->
  nth_error (v_handlers s) i = Some hi -> h_pc hi <> HDone ->
  nth_error (v_handlers s) j = Some hj -> h_pc hj <> HDone -> i = j.
Proof. exact C35_aux4. Qed.
Print Assumptions C35_simple_one_at_a_time.

(** As long as no Listen succeeds no connection is taken on: Serve is waiting for Listen or has
    returned. *)
Lemma C35_aux5 : forall threaded kind ls s, run ls (NewServer threaded kind) = Some s ->
  ~ In (LListen None) ls ->
  v_handlers s = [] /\ (v_main s = MIdle \/ v_main s = MListen) /\ ss_listener (v_sock s) = false /\ v_kind s = kind.
Proof.
  intros threaded kind. induction ls as [|l ls IH] using rev_ind; intros s R N.
  - injection R as <-. cbn. auto.
  - rewrite run_app in R. destruct (run ls (NewServer threaded kind)) as [s1|] eqn:R1; [|discriminate].
    destruct (IH s1 eq_refl) as (H & M & L & K); [intro X; apply N, in_or_app; auto|].
    assert (Nl : l <> LListen None) by (intros ->; apply N, in_or_app; right; left; reflexivity).
    cbn [run] in R. destruct (step l s1) as [s2|] eqn:S; [|discriminate]. injection R as <-.
    unfold step in S. destruct (v_crashed s1); [discriminate|].
    destruct l as [|le| |le ae client|k r|k|k| |lc cc].
    + destruct (v_main s1); try discriminate. injection S as <-. cbn. auto.
    + destruct M as [M|M]; rewrite M in S; [discriminate|].
      destruct le as [e|]; [|congruence]. unfold do_listen, ss_listen, ss_open in S. rewrite L in S.
      destruct (v_kind s1) eqn:KK; injection S as <-; cbn; rewrite ?KK; auto.
    + destruct M as [M|M]; rewrite M in S; discriminate.
    + destruct M as [M|M]; rewrite M in S; discriminate.
    + rewrite H in S. destruct k; discriminate.
    + rewrite H in S. destruct k; discriminate.
    + rewrite H in S. destruct k; discriminate.
    + injection S as <-. cbn. auto.
    + destruct (v_stops s1); [discriminate|]. injection S as <-. cbn.
      split; [assumption|]. split; [assumption|]. split; [|assumption].
      unfold do_interrupt, ss_close. destruct (v_sock s1) as [x c]. cbn in *. subst x.
      destruct (v_kind s1), c, cc; reflexivity.
Qed.
Theorem C35_listen_first : forall threaded kind ls s, run ls (NewServer threaded kind) = Some s ->
  ~ In (LListen None) ls ->
  v_handlers s = [] /\ (v_main s = MIdle \/ v_main s = MListen).
Proof.
  intros threaded kind ls s R N. destruct (C35_aux5 _ _ _ _ R N) as (A & B & _). auto.
Qed.
Print Assumptions C35_listen_first.

(** Serve called again after a Serve that ended with an error of Accept, the listener being left open.  TServerSocket goes on
    listening and needs no new listener; TNonblockingServerSocket says "already open", and however often Serve is called
    no connection is taken on until an Interrupt has closed the listener. *)
Lemma shut_step : forall l s s', step l s = Some s' -> (forall lc cc, l <> LInterrupt lc cc) -> seq_inv s ->
  v_kind s = KNonblocking -> ss_listener (v_sock s) = true -> v_main s = MIdle \/ v_main s = MListen ->
  v_kind s' = KNonblocking /\ ss_listener (v_sock s') = true /\ (v_main s' = MIdle \/ v_main s' = MListen) /\
  length (v_handlers s') = length (v_handlers s).
Proof.
  intros l s s' S Ni I K L M. unfold step in S. destruct (v_crashed s); [discriminate|].
  assert (G : forall k h pc pn, nth_error (v_handlers s) k = Some h -> h_pc h <> HDone ->
    v_kind (move k h pc pn s) = KNonblocking /\ ss_listener (v_sock (move k h pc pn s)) = true /\
    (v_main (move k h pc pn s) = MIdle \/ v_main (move k h pc pn s) = MListen) /\
    length (v_handlers (move k h pc pn s)) = length (v_handlers s)).
  { intros k h pc pn N P. unfold move. cbn. rewrite upd_length. split; [exact K|]. split; [exact L|]. split; [|reflexivity].
    destruct (v_threaded s) eqn:T; [rewrite andb_false_r; exact M|].
    exfalso. specialize (I T k h N P). destruct M as [M|M]; congruence. }
  destruct l as [|le| |le ae client|k r|k|k| |lc cc].
  - destruct M as [M|M]; rewrite M in S; [|discriminate]. injection S as <-. cbn. auto.
  - destruct M as [M|M]; rewrite M in S; [discriminate|]. rewrite K in S. cbn [do_listen] in S. unfold ss_open in S. rewrite L in S.
    cbn in S. injection S as <-. cbn. auto.
  - destruct M as [M|M]; rewrite M in S; discriminate.
  - destruct M as [M|M]; rewrite M in S; discriminate.
  - destruct (nth_error (v_handlers s) k) as [h|] eqn:N; [|discriminate]. destruct (h_pc h) eqn:P; try discriminate.
    destruct r as [ok e|]; [destruct ((e && negb (v_stopped s)) || negb ok)|]; injection S as <-;
      first [apply G; [exact N|congruence]|split; [exact K|]; split; [exact L|]; split; [exact M|reflexivity]].
  - destruct (nth_error (v_handlers s) k) as [h|] eqn:N; [|discriminate]. destruct (h_pc h) eqn:P; try discriminate.
    injection S as <-. apply G; [exact N|congruence].
  - destruct (nth_error (v_handlers s) k) as [h|] eqn:N; [|discriminate]. destruct (h_pc h) eqn:P; try discriminate.
    injection S as <-. apply G; [exact N|congruence].
  - injection S as <-. cbn. auto.
  - exfalso. apply (Ni lc cc). reflexivity.
Qed.
Lemma shut_run : forall ls s s', run ls s = Some s' -> (forall lc cc, ~ In (LInterrupt lc cc) ls) -> seq_inv s ->
  v_kind s = KNonblocking -> ss_listener (v_sock s) = true -> v_main s = MIdle \/ v_main s = MListen ->
  length (v_handlers s') = length (v_handlers s).
Proof.
  induction ls as [|l ls IH]; intros s s' R Ni I K L M; cbn [run] in R; [injection R as <-; reflexivity|].
  destruct (step l s) as [s1|] eqn:S; [|discriminate].
  destruct (shut_step l s s1 S) as (K1 & L1 & M1 & H1); try assumption.
  { intros lc cc ->. apply (Ni lc cc). left. reflexivity. }
  rewrite <- H1. apply (IH s1 s' R); try assumption.
  - intros lc cc C. apply (Ni lc cc). right. exact C.
  - exact (seq_step _ _ _ S I).
Qed.
Theorem C35_serve_again : forall threaded kind ls s le e client,
  run ls (NewServer threaded kind) = Some s -> v_crashed s = false -> v_main s = MAccept -> ss_listener (v_sock s) = true ->
  (kind = KServerSocket -> forall le', exists s1 s2,
     run [LAccept le (Some e) client] s = Some s1 /\ v_main s1 = MIdle /\
     run [LServe; LListen le'; LCheck] s1 = Some s2 /\ v_main s2 = MAccept /\ v_sock s2 = v_sock s) /\
  (kind = KNonblocking -> exists s1, run [LAccept le (Some e) client] s = Some s1 /\ v_main s1 = MIdle /\
     (forall le', exists s2, run [LServe; LListen le'] s1 = Some s2 /\ v_main s2 = MIdle) /\
     forall ls2 s2, run ls2 s1 = Some s2 -> (forall lc cc, ~ In (LInterrupt lc cc) ls2) ->
       length (v_handlers s2) = length (v_handlers s)).
Proof.
  intros threaded kind ls s le e client R C M L. pose proof (kind_const _ _ _ R) as K. cbn in K.
  destruct (seq_run _ _ _ R) as [I _]; [intros _ k h G; destruct k; discriminate|].
  destruct s as [th kd stp mn [li co] sto hs cr]. cbn in *. subst. split.
  - intros -> le'. eexists _, _. split; [reflexivity|]. split; [reflexivity|]. split; [reflexivity|]. split; reflexivity.
  - intros ->. eexists. split; [reflexivity|]. split; [reflexivity|]. split; [intro le'; eexists; split; reflexivity|].
    intros ls2 s2 R2 Ni. refine (shut_run ls2 _ s2 R2 Ni _ eq_refl eq_refl (or_introl eq_refl)).
    intros T k h N P. specialize (I T k h N P). discriminate.
Qed.
Print Assumptions C35_serve_again.
(** A connection taken on, then an error of Accept; Serve again. *)
Example C35_again_case : exists s,
  run [LServe; LListen None; LCheck; accept_one; LCheck] (NewServer true KNonblocking) = Some s /\
  v_main s = MAccept /\ ss_listener (v_sock s) = true /\ length (v_handlers s) = 1%nat /\
  exists s2, run [LAccept None (Some EEof) None; LServe; LListen None] s = Some s2 /\ v_main s2 = MIdle.
Proof. eexists. split; [vm_compute; reflexivity|]. repeat (split; [reflexivity|]). eexists. split; vm_compute; reflexivity. Qed.

(** The panics: the flag of a handler says whether its Process panicked. *)
Lemma C35_aux6 : forall threaded kind ls s, run ls (NewServer threaded kind) = Some s ->
  (forall k h, nth_error (v_handlers s) k = Some h -> (h_panic h = true <-> In (LProcess k PPanic) ls)) /\
  (forall k, In (LProcess k PPanic) ls -> (k < length (v_handlers s))%nat) /\
  (v_crashed s = true <-> exists k h, nth_error (v_handlers s) k = Some h /\ h_pc h = HDone /\ h_panic h = true).
Proof.
  intros threaded kind. induction ls as [|l ls IH] using rev_ind; intros s R.
  - injection R as <-. cbn. split; [intros [|k] h H; discriminate|]. split; [tauto|].
    split; [discriminate|]. intros ([|k] & h & H & _); discriminate.
  - rewrite run_app in R. destruct (run ls (NewServer threaded kind)) as [s1|] eqn:R1; [|discriminate].
    destruct (IH s1 eq_refl) as (A & B & C). clear IH.
    cbn [run] in R. destruct (step l s1) as [s2|] eqn:S; [|discriminate]. injection R as <-.
    unfold step in S. destruct (v_crashed s1) eqn:CR; [discriminate|].
    assert (C' : ~ exists k h, nth_error (v_handlers s1) k = Some h /\ h_pc h = HDone /\ h_panic h = true).
    { intro X. apply C in X. discriminate. }
    assert (I1 : forall k, l <> LProcess k PPanic ->
               (In (LProcess k PPanic) (ls ++ [l]) <-> In (LProcess k PPanic) ls)).
    { intros k X. rewrite in_app_iff. cbn [In]. intuition congruence. }
    (* steps that leave the handlers alone *)
    assert (G0 : v_handlers s2 = v_handlers s1 -> v_crashed s2 = false -> (forall k, l <> LProcess k PPanic) ->
      (forall k h, nth_error (v_handlers s2) k = Some h -> (h_panic h = true <-> In (LProcess k PPanic) (ls ++ [l]))) /\
      (forall k, In (LProcess k PPanic) (ls ++ [l]) -> (k < length (v_handlers s2))%nat) /\
      (v_crashed s2 = true <-> exists k h, nth_error (v_handlers s2) k = Some h /\ h_pc h = HDone /\ h_panic h = true)).
    { intros -> -> X. split; [|split].
      - intros k h H. rewrite (I1 k (X k)). auto.
      - intros k H. rewrite (I1 k (X k)) in H. auto.
      - exact C. }
    (* a handler moves *)
    assert (GM : forall k h pc pn, nth_error (v_handlers s1) k = Some h -> s2 = move k h pc pn s1 ->
      h_pc h <> HDone -> (forall j, j <> k -> l <> LProcess j PPanic) ->
      (pn = true <-> In (LProcess k PPanic) (ls ++ [l])) ->
      (forall k h, nth_error (v_handlers s2) k = Some h -> (h_panic h = true <-> In (LProcess k PPanic) (ls ++ [l]))) /\
      (forall k, In (LProcess k PPanic) (ls ++ [l]) -> (k < length (v_handlers s2))%nat) /\
      (v_crashed s2 = true <-> exists k h, nth_error (v_handlers s2) k = Some h /\ h_pc h = HDone /\ h_panic h = true)).
    { intros k h pc pn N -> P X Y. cbn [move v_handlers v_crashed]. rewrite CR. cbn [orb].
      assert (KL : (k < length (v_handlers s1))%nat) by (apply nth_error_Some; congruence).
      split; [|split].
      - intros j hj H. destruct (Nat.eq_dec j k) as [->|J].
        + rewrite (upd_same _ _ _ _ N) in H. injection H as <-. cbn [h_panic]. exact Y.
        + rewrite upd_other in H by congruence. rewrite (I1 j (X j J)). auto.
      - intros j H. rewrite upd_length. destruct (Nat.eq_dec j k) as [->|J]; [assumption|].
        rewrite (I1 j (X j J)) in H. auto.
      - split.
        + intro H. apply andb_true_iff in H. destruct H as [H1 H2].
          exists k, (MkHandler pc (h_in h) (h_out h) pn). rewrite (upd_same _ _ _ _ N). cbn.
          destruct pc; try discriminate. auto.
        + intros (j & hj & H & D & Q). destruct (Nat.eq_dec j k) as [->|J].
          * rewrite (upd_same _ _ _ _ N) in H. injection H as <-. cbn in D, Q. subst. reflexivity.
          * rewrite upd_other in H by congruence. exfalso. apply C'. eauto. }
    destruct l as [|le| |le ae client|k r|k|k| |lc cc].
    + destruct (v_main s1); try discriminate. injection S as <-. apply G0; auto; discriminate.
    + destruct (v_main s1); try discriminate. destruct (do_listen _ _ _) as [e x]. injection S as <-.
      apply G0; auto; discriminate.
    + destruct (v_main s1); try discriminate. injection S as <-. apply G0; auto; discriminate.
    + destruct (v_main s1); try discriminate. destruct (do_accept _ _ _ _) as [a x].
      destruct (negb a); [injection S as <-; apply G0; auto; discriminate|].
      destruct client as [[i o]|]; injection S as <-; [|apply G0; auto; discriminate].
      clear G0 GM. cbn [v_handlers v_crashed]. split; [|split].
      * intros k h H. rewrite (I1 k) by discriminate.
        destruct (Nat.lt_ge_cases k (length (v_handlers s1))) as [L|L].
        -- rewrite nth_error_app1 in H by assumption. auto.
        -- rewrite nth_error_app2 in H by assumption.
           destruct (k - length (v_handlers s1))%nat as [|m]; [|destruct m; discriminate].
           injection H as <-. cbn. split; [discriminate|]. intro X. apply B in X. lia.
      * intros k H. rewrite (I1 k) in H by discriminate. rewrite app_length. apply B in H. cbn. lia.
      * split; [discriminate|]. intros (k & h & H & D & Q). exfalso. apply C'.
        destruct (Nat.lt_ge_cases k (length (v_handlers s1))) as [L|L].
        -- rewrite nth_error_app1 in H by assumption. eauto.
        -- rewrite nth_error_app2 in H by assumption.
           destruct (k - length (v_handlers s1))%nat as [|m]; [|destruct m; discriminate].
           injection H as <-. discriminate.
    + destruct (nth_error (v_handlers s1) k) as [h|] eqn:N; [|discriminate].
      destruct (h_pc h) eqn:P; try discriminate.
      assert (F : In (LProcess k PPanic) ls -> False).
      { intro X. apply (A k h N) in X.
        destruct (inv_run _ _ _ _ R1 k) as [_ _]. revert X. clear - R1 N P.
        revert s1 h R1 N P. induction ls as [|l ls IH] using rev_ind; intros s1 h R1 N P.
        - injection R1 as <-. destruct k; discriminate.
        - rewrite run_app in R1. destruct (run ls (NewServer threaded kind)) as [s0|] eqn:R0; [|discriminate].
          cbn [run] in R1. destruct (step l s0) as [sx|] eqn:S; [|discriminate]. injection R1 as ->.
          specialize (IH s0). unfold step in S. destruct (v_crashed s0); [discriminate|].
          assert (M : forall j hj pc pn, nth_error (v_handlers s0) j = Some hj -> pc <> HLoop ->
            s1 = move j hj pc pn s0 -> h_panic h = true -> False).
          { intros j hj pc pn Nj Pc -> Q. cbn [move v_handlers] in N. destruct (Nat.eq_dec j k) as [->|J].
            - rewrite (upd_same _ _ _ _ Nj) in N. injection N as <-. cbn in P. congruence.
            - rewrite upd_other in N by congruence. exact (IH h eq_refl N P Q). }
          assert (AL : forall h, after_loop h <> HLoop) by (intro x; unfold after_loop; destruct (h_out x), (h_in x); discriminate).
          assert (AO : forall h, after_out h <> HLoop) by (intro x; unfold after_out; destruct (h_in x); discriminate).
          destruct l as [|le| |le ae client|j r|j|j| |lc cc].
          + destruct (v_main s0); try discriminate. injection S as <-. eauto.
          + destruct (v_main s0); try discriminate. destruct (do_listen _ _ _). injection S as <-. eauto.
          + destruct (v_main s0); try discriminate. injection S as <-. eauto.
          + destruct (v_main s0); try discriminate. destruct (do_accept _ _ _ _) as [a x].
            destruct (negb a); [injection S as <-; eauto|].
            destruct client as [[i o]|]; injection S as <-; [|eauto].
            cbn [v_handlers] in N. destruct (Nat.lt_ge_cases k (length (v_handlers s0))) as [L|L].
            * rewrite nth_error_app1 in N by assumption. eauto.
            * rewrite nth_error_app2 in N by assumption.
              destruct (k - length (v_handlers s0))%nat as [|m]; [|destruct m; discriminate].
              injection N as <-. discriminate.
          + destruct (nth_error (v_handlers s0) j) as [hj|] eqn:Nj; [|discriminate].
            destruct (h_pc hj); try discriminate. destruct r as [ok e|].
            * destruct (_ || _); injection S as <-; eauto.
            * injection S as <-. eauto.
          + destruct (nth_error (v_handlers s0) j) as [hj|] eqn:Nj; [|discriminate].
            destruct (h_pc hj); try discriminate. injection S as <-. eauto.
          + destruct (nth_error (v_handlers s0) j) as [hj|] eqn:Nj; [|discriminate].
            destruct (h_pc hj); try discriminate. injection S as <-.
            apply (M j hj HDone (h_panic hj) Nj); [discriminate|reflexivity].
          + injection S as <-. eauto.
          + destruct (v_stops s0); [discriminate|]. injection S as <-. eauto. }
      destruct r as [ok e|].
      * destruct (_ || _); injection S as <-; [|apply G0; auto; discriminate].
        apply (GM k h (after_loop h) false); auto; try congruence; try discriminate.
        rewrite (I1 k) by discriminate. split; [discriminate|tauto].
      * injection S as <-. apply (GM k h (after_loop h) true); auto; try congruence.
        rewrite in_app_iff. cbn. tauto.
    + destruct (nth_error (v_handlers s1) k) as [h|] eqn:N; [|discriminate].
      destruct (h_pc h) eqn:P; try discriminate. injection S as <-.
      apply (GM k h (after_out h) (h_panic h)); auto; try congruence; try discriminate.
      rewrite (I1 k) by discriminate. auto.
    + destruct (nth_error (v_handlers s1) k) as [h|] eqn:N; [|discriminate].
      destruct (h_pc h) eqn:P; try discriminate. injection S as <-.
      apply (GM k h HDone (h_panic h)); auto; try congruence; try discriminate.
      rewrite (I1 k) by discriminate. auto.
    + injection S as <-. apply G0; auto; discriminate.
    + destruct (v_stops s1); [discriminate|]. injection S as <-. apply G0; auto; discriminate.
Qed.
(** Nothing recovers a panic: the program is down if and only if Process has panicked on some
    connection and the deferred closes of that connection are done; then nothing happens any more. *)
Theorem C35_panic_is_fatal : forall threaded kind ls s, run ls (NewServer threaded kind) = Some s ->
  (v_crashed s = true <->
     exists k h, In (LProcess k PPanic) ls /\ nth_error (v_handlers s) k = Some h /\ h_pc h = HDone) /\
  (v_crashed s = true -> forall l, step l s = None).
Proof.
  intros threaded kind ls s R. destruct (C35_aux6 _ _ _ _ R) as (A & _ & C). split.
  - rewrite C. split; intros (k & h & H).
    + destruct H as (N & D & P). exists k, h. split; [apply (A k h N); exact P|auto].
    + destruct H as (I & N & D). exists k, h. split; [exact N|]. split; [exact D|]. apply (A k h N). exact I.
  - intros X l. unfold step. rewrite X. reflexivity.
Qed.
Print Assumptions C35_panic_is_fatal.
Example C35_panic_case :
  let ls := [LServe; LListen None; LCheck; accept_one; LCheck; accept_one; LProcess 1 PPanic;
             LProcess 0 (PRet true false); LCloseOut 1; LCloseIn 1] in
  match run ls (NewServer true KServerSocket) with
  | Some s => v_crashed s = true /\ map h_pc (v_handlers s) = [HLoop; HDone]
  | None => False
  end /\
  match run [LServe; LListen (Some (EOther 1))] (NewServer false KServerSocket) with
  | Some s => v_main s = MIdle /\ v_handlers s = []
  | None => False
  end.
Proof. vm_compute. auto. Qed.
(** Two connections of a TNonblockingServer interleaved, Stop in between, an error ignored while
    stopping. *)
Example C35_case :
  let ls := [LServe; LListen None; LCheck; accept_one; LCheck; LAccept None None (Some (true, false));
             LProcess 0 (PRet true false); LProcess 1 (PRet true true); LCloseIn 1; LCheck; LStop;
             LProcess 0 (PRet true true); LInterrupt None None; LProcess 0 (PRet false true);
             LCloseOut 0; LAccept None None (Some (true, true)); LCloseIn 0] in
  match run ls (NewServer true KNonblocking) with
  | Some s => v_main s = MIdle /\ map h_pc (v_handlers s) = [HDone; HDone] /\
              count (is_in 1) ls = 1%nat /\ count (is_out 1) ls = 0%nat
  | None => False
  end.
Proof. vm_compute. auto. Qed.
