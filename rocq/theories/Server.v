(** TSimpleServer (tsimple_server.go) and TNonblockingServer (tnonblocking_server.go): Serve, Stop
    and processRequest as threads whose steps interleave in any order.
    Simplification: the flag [stopped] is read and written without synchronisation in Go; here
    its accesses are atomic and seen at once by every thread. *)
From Coq Require Import ZArith List Bool Lia.
From Coq Require Import ZifyBool ZifyNat.
From Verif Require Import Base Errors ServerSocket.
Import ListNotations.
Open Scope Z_scope.

(** The server transport: one of the two server sockets, or any other. *)
Inductive skind : Type := KServerSocket | KNonblocking | KAny.
(** Where the goroutine in Serve is (tsimple_server.go:113-129, tnonblocking_server.go:123-139):
    not running; before Listen; before the test of [stopped]; in Accept; in processRequest of
    the k-th connection (TSimpleServer only). *)
Inductive mpc : Type := MIdle | MListen | MLoop | MAccept | MServe (k : nat).
(** Where processRequest is (tsimple_server.go:137-161, tnonblocking_server.go:151-175): in the
    loop; before the deferred Close of the output transport, of the input transport; finished.
    Deferred calls run last first. *)
Inductive hpc : Type := HLoop | HCloseOut | HCloseIn | HDone.
(** A connection: the factories may give nil transports. *)
Record handler : Type := MkHandler { h_pc : hpc; h_in : bool; h_out : bool; h_panic : bool }.
Record srv : Type := MkSrv {
  v_threaded : bool;          (* TNonblockingServer *)
  v_kind : skind;
  v_stopped : bool;
  v_main : mpc;
  v_sock : ssock;
  v_stops : nat;              (* calls of Stop between the flag and Interrupt *)
  v_handlers : list handler;  (* in order of acceptance *)
  v_crashed : bool            (* a panic reached the top of a goroutine *)
}.
Definition NewServer (threaded : bool) (k : skind) : srv :=
  MkSrv threaded k false MIdle NewServerSocketAddr 0 [] false.

(** What Process returned, or that it panicked. *)
Inductive pres : Type := PRet (ok : bool) (e : bool) | PPanic.
Inductive label : Type :=
| LServe                                   (* Serve is called: stopped = false *)
| LListen (le : option err)
| LCheck                                   (* for !p.stopped *)
| LAccept (le ae : option err) (client : option (bool * bool))
| LProcess (k : nat) (r : pres)
| LCloseOut (k : nat)
| LCloseIn (k : nat)
| LStop                                    (* Stop: stopped = true *)
| LInterrupt (lc cc : option err).         (* Stop: Interrupt *)

Definition set_main (m : mpc) (s : srv) : srv :=
  MkSrv (v_threaded s) (v_kind s) (v_stopped s) m (v_sock s) (v_stops s) (v_handlers s) (v_crashed s).
Definition set_sock (x : ssock) (s : srv) : srv :=
  MkSrv (v_threaded s) (v_kind s) (v_stopped s) (v_main s) x (v_stops s) (v_handlers s) (v_crashed s).
Definition set_stopped (b : bool) (n : nat) (s : srv) : srv :=
  MkSrv (v_threaded s) (v_kind s) b (v_main s) (v_sock s) n (v_handlers s) (v_crashed s).
Fixpoint upd (k : nat) (h : handler) (l : list handler) : list handler :=
  match k, l with
  | _, [] => []
  | O, _ :: t => h :: t
  | S k', x :: t => x :: upd k' h t
  end.
(** The k-th processRequest moves to [pc]; when it has finished, TSimpleServer goes on with its
    loop, and a panic takes the program down. *)
Definition move (k : nat) (h : handler) (pc : hpc) (pn : bool) (s : srv) : srv :=
  let done := match pc with HDone => true | _ => false end in
  MkSrv (v_threaded s) (v_kind s) (v_stopped s)
    (if done && negb (v_threaded s) then MLoop else v_main s)
    (v_sock s) (v_stops s)
    (upd k (MkHandler pc (h_in h) (h_out h) pn) (v_handlers s))
    (v_crashed s || (done && pn)).
(** After the loop, and after the first deferred call. *)
Definition after_loop (h : handler) : hpc :=
  if h_out h then HCloseOut else if h_in h then HCloseIn else HDone.
Definition after_out (h : handler) : hpc := if h_in h then HCloseIn else HDone.

Definition do_listen (k : skind) (le : option err) (x : ssock) : option err * ssock :=
  match k with
  | KServerSocket => ss_listen le x
  | KNonblocking => ss_open le x
  | KAny => (le, x)
  end.
Definition do_accept (k : skind) (le ae : option err) (x : ssock) : bool * ssock :=
  match k with
  | KServerSocket => let '(a, _, x') := ss_accept le ae x in (a, x')
  | KNonblocking => let '(a, _, x') := nss_accept ae x in (a, x')
  | KAny => (match ae with None => true | _ => false end, x)
  end.
Definition do_interrupt (k : skind) (lc cc : option err) (x : ssock) : ssock :=
  match k with
  | KAny => x
  | _ => snd (ss_close lc cc x)
  end.

Definition step (l : label) (s : srv) : option srv :=
  if v_crashed s then None else
  match l with
  | LServe => match v_main s with
              | MIdle => Some (set_main MListen (set_stopped false (v_stops s) s))
              | _ => None
              end
  | LListen le =>
    match v_main s with
    | MListen =>
      let '(e, x) := do_listen (v_kind s) le (v_sock s) in
      Some (set_main (match e with Some _ => MIdle | None => MLoop end) (set_sock x s))
    | _ => None
    end
  | LCheck => match v_main s with
              | MLoop => Some (set_main (if v_stopped s then MIdle else MAccept) s)
              | _ => None
              end
  | LAccept le ae client =>
    match v_main s with
    | MAccept =>
      let '(a, x) := do_accept (v_kind s) le ae (v_sock s) in
      if negb a then Some (set_main MIdle (set_sock x s))
      else match client with
           | None => Some (set_main MLoop (set_sock x s))
           | Some (i, o) =>
             let k := length (v_handlers s) in
             Some (MkSrv (v_threaded s) (v_kind s) (v_stopped s)
                     (if v_threaded s then MLoop else MServe k) x (v_stops s)
                     (v_handlers s ++ [MkHandler HLoop i o false]) false)
           end
    | _ => None
    end
  | LProcess k r =>
    match nth_error (v_handlers s) k with
    | Some h =>
      match h_pc h with
      | HLoop =>
        match r with
        | PPanic => Some (move k h (after_loop h) true s)
        | PRet ok e =>
          if (e && negb (v_stopped s)) || negb ok then Some (move k h (after_loop h) false s)
          else Some s
        end
      | _ => None
      end
    | None => None
    end
  | LCloseOut k =>
    match nth_error (v_handlers s) k with
    | Some h => match h_pc h with
                | HCloseOut => Some (move k h (after_out h) (h_panic h) s)
                | _ => None
                end
    | None => None
    end
  | LCloseIn k =>
    match nth_error (v_handlers s) k with
    | Some h => match h_pc h with
                | HCloseIn => Some (move k h HDone (h_panic h) s)
                | _ => None
                end
    | None => None
    end
  | LStop => Some (set_stopped true (S (v_stops s)) s)
  | LInterrupt lc cc =>
    match v_stops s with
    | O => None
    | S n => Some (set_stopped (v_stopped s) n (set_sock (do_interrupt (v_kind s) lc cc (v_sock s)) s))
    end
  end.
Fixpoint run (ls : list label) (s : srv) : option srv :=
  match ls with
  | [] => Some s
  | l :: t => match step l s with Some s' => run t s' | None => None end
  end.

(** ** What is to be shown, in terms of the trace *)
Definition is_out (k : nat) (l : label) : bool := match l with LCloseOut j => (j =? k)%nat | _ => false end.
Definition is_in (k : nat) (l : label) : bool := match l with LCloseIn j => (j =? k)%nat | _ => false end.
Definition is_proc (k : nat) (l : label) : bool := match l with LProcess j _ => (j =? k)%nat | _ => false end.
Definition count (f : label -> bool) (ls : list label) : nat := length (filter f ls).
(** Once a transport of connection k is closed its requests are no longer processed. *)
Fixpoint quiet_after_close (k : nat) (ls : list label) : Prop :=
  match ls with
  | [] => True
  | l :: t => ((is_out k l || is_in k l) = true -> existsb (is_proc k) t = false) /\ quiet_after_close k t
  end.
Definition b2n (b : bool) : nat := if b then 1 else 0.

(** ** Proofs *)
Lemma run_app : forall l1 l2 s, run (l1 ++ l2) s = match run l1 s with Some s' => run l2 s' | None => None end.
Proof. induction l1; intros; cbn; auto. destruct (step a s); auto. Qed.
Lemma count_snoc : forall f ls l, count f (ls ++ [l]) = (count f ls + b2n (f l))%nat.
Proof. intros. unfold count. rewrite filter_app, app_length. cbn. destruct (f l); reflexivity. Qed.
Lemma upd_same : forall l k h x, nth_error l k = Some x -> nth_error (upd k h l) k = Some h.
Proof. induction l; intros [|k] h x H; cbn in *; try discriminate; eauto. Qed.
Lemma upd_other : forall l k j h, k <> j -> nth_error (upd k h l) j = nth_error l j.
Proof. induction l; intros [|k] [|j] h H; cbn; try reflexivity; try lia. apply IHl. lia. Qed.
Lemma upd_length : forall l k h, length (upd k h l) = length l.
Proof. induction l; intros [|k] h; cbn; auto. Qed.
Lemma quiet_snoc : forall k ls l,
  quiet_after_close k ls ->
  (is_proc k l = true -> existsb (fun x => is_out k x || is_in k x) ls = false) ->
  quiet_after_close k (ls ++ [l]).
Proof.
  induction ls as [|x ls IH]; intros l Q H; cbn [app quiet_after_close].
  - split; [reflexivity|exact I].
  - destruct Q as [Q1 Q2]. split.
    + intro C. rewrite existsb_app, (Q1 C). cbn. rewrite orb_false_r.
      destruct (is_proc k l) eqn:P; [|reflexivity]. specialize (H eq_refl). cbn in H.
      apply orb_false_iff in H. destruct H as [H _]. rewrite C in H. discriminate.
    + apply IH; [assumption|]. intro P. specialize (H P). cbn in H. apply orb_false_iff in H. tauto.
Qed.
Lemma count_zero : forall f ls, count f ls = O <-> existsb f ls = false.
Proof.
  intros f ls. unfold count. induction ls as [|l ls IH]; cbn; [tauto|].
  destruct (f l); cbn; [split; discriminate|assumption].
Qed.
Lemma exists_or : forall (f g : label -> bool) ls,
  existsb (fun x => f x || g x) ls = existsb f ls || existsb g ls.
Proof. intros f g. induction ls; cbn; auto. rewrite IHls. destruct (f a), (g a), (existsb f ls); reflexivity. Qed.

(** The closes done so far, by the state of the handler. *)
Definition closes (h : handler) (o i : nat) : Prop :=
  match h_pc h with
  | HLoop => o = O /\ i = O
  | HCloseOut => o = O /\ i = O /\ h_out h = true
  | HCloseIn => o = b2n (h_out h) /\ i = O /\ h_in h = true
  | HDone => o = b2n (h_out h) /\ i = b2n (h_in h)
  end.
Definition inv (ls : list label) (s : srv) : Prop :=
  forall k,
    match nth_error (v_handlers s) k with
    | Some h => closes h (count (is_out k) ls) (count (is_in k) ls)
    | None => count (is_out k) ls = O /\ count (is_in k) ls = O
    end /\ quiet_after_close k ls.

Lemma inv_same : forall ls l s s', inv ls s -> v_handlers s' = v_handlers s ->
  (forall k, is_out k l = false /\ is_in k l = false /\ is_proc k l = false) -> inv (ls ++ [l]) s'.
Proof.
  intros ls l s s' H E N k. destruct (H k) as [A B]. destruct (N k) as (N1 & N2 & N3).
  rewrite E, !count_snoc, N1, N2, !Nat.add_0_r. split; [assumption|].
  apply quiet_snoc; [assumption|]. congruence.
Qed.
(** A step of handler k. *)
Lemma inv_move : forall ls l s s' k h pc pn, inv ls s -> nth_error (v_handlers s) k = Some h ->
  v_handlers s' = upd k (MkHandler pc (h_in h) (h_out h) pn) (v_handlers s) ->
  (forall j, j <> k -> is_out j l = false /\ is_in j l = false /\ is_proc j l = false) ->
  closes (MkHandler pc (h_in h) (h_out h) pn) (count (is_out k) (ls ++ [l])) (count (is_in k) (ls ++ [l])) ->
  (is_proc k l = true -> h_pc h = HLoop) ->
  inv (ls ++ [l]) s'.
Proof.
  intros ls l s s' k h pc pn H N E O C P j. destruct (Nat.eq_dec j k) as [->|J].
  - destruct (H k) as [A B]. rewrite N in A. rewrite E, (upd_same _ _ _ _ N). split; [assumption|].
    apply quiet_snoc; [assumption|]. intro Q. specialize (P Q). unfold closes in A. rewrite P in A.
    destruct A as [A1 A2]. rewrite exists_or. apply count_zero in A1, A2. rewrite A1, A2. reflexivity.
  - destruct (H j) as [A B]. destruct (O j J) as (O1 & O2 & O3).
    rewrite E, upd_other by congruence. rewrite !count_snoc, O1, O2, !Nat.add_0_r. split; [assumption|].
    apply quiet_snoc; [assumption|]. congruence.
Qed.
Lemma others : forall k (l : label), (exists r, l = LProcess k r) \/ l = LCloseOut k \/ l = LCloseIn k ->
  forall j, j <> k -> is_out j l = false /\ is_in j l = false /\ is_proc j l = false.
Proof.
  intros k l H j J. assert (E : (k =? j)%nat = false) by (apply Nat.eqb_neq; congruence).
  destruct H as [(r & ->)|[->| ->]]; cbn; auto.
Qed.
Lemma inv_step : forall ls l s s', inv ls s -> step l s = Some s' -> inv (ls ++ [l]) s'.
Proof.
  intros ls l s s' H S. unfold step in S. destruct (v_crashed s); [discriminate|].
  assert (NP : match l with LProcess _ _ | LCloseOut _ | LCloseIn _ => False | _ => True end ->
    forall k, is_out k l = false /\ is_in k l = false /\ is_proc k l = false)
    by (destruct l; try contradiction; auto).
  destruct l as [|le| |le ae client|k r|k|k| |lc cc].
  - destruct (v_main s); try discriminate. injection S as <-. apply (inv_same ls LServe s); auto.
  - destruct (v_main s); try discriminate. destruct (do_listen _ _ _) as [e x]. injection S as <-.
    apply (inv_same ls (LListen le) s); auto.
  - destruct (v_main s); try discriminate. injection S as <-. apply (inv_same ls LCheck s); auto.
  - destruct (v_main s); try discriminate. destruct (do_accept _ _ _ _) as [a x].
    destruct (negb a); [injection S as <-; apply (inv_same ls (LAccept le ae client) s); auto|].
    destruct client as [[i o]|]; injection S as <-; [|apply (inv_same ls (LAccept le ae None) s); auto].
    intro k. destruct (H k) as [A B]. destruct (NP I k) as (N1 & N2 & N3).
    rewrite !count_snoc, N1, N2, !Nat.add_0_r. cbn [v_handlers]. split.
    + destruct (Nat.lt_trichotomy k (length (v_handlers s))) as [L|[L|L]].
      * rewrite nth_error_app1 by assumption. exact A.
      * subst k. rewrite nth_error_app2, Nat.sub_diag by lia. cbn [nth_error].
        rewrite (proj2 (nth_error_None _ _)) in A by lia. exact A.
      * rewrite nth_error_app2 by lia. destruct (k - length (v_handlers s))%nat as [|m] eqn:M; [lia|].
        cbn [nth_error]. rewrite (proj2 (nth_error_None (v_handlers s) k)) in A by lia.
        destruct m; exact A.
    + apply quiet_snoc; [assumption|]. congruence.
  - destruct (nth_error (v_handlers s) k) as [h|] eqn:N; [|discriminate].
    destruct (h_pc h) eqn:P; try discriminate.
    assert (G : forall pn, inv (ls ++ [LProcess k r]) (move k h (after_loop h) pn s)).
    { intro pn. eapply inv_move; eauto.
      - reflexivity.
      - apply others. left. eauto.
      - rewrite !count_snoc. cbn [is_out is_in b2n]. rewrite !Nat.add_0_r.
        destruct (H k) as [A _]. rewrite N in A. unfold closes in *. rewrite P in A.
        destruct A as [-> ->]. cbn [h_pc h_in h_out]. unfold after_loop.
        destruct (h_out h), (h_in h); cbn; auto. }
    destruct r as [ok e|].
    + destruct (_ || _); injection S as <-; [apply G|].
      (* no change: the handler stays in its loop *)
      intro j. destruct (H j) as [A B]. rewrite !count_snoc. cbn [is_out is_in b2n]. rewrite !Nat.add_0_r.
      split; [assumption|]. apply quiet_snoc; [assumption|]. cbn [is_proc]. intro E.
      apply Nat.eqb_eq in E. subst j. rewrite N in A. unfold closes in A. rewrite P in A.
      destruct A as [A1 A2]. rewrite exists_or. apply count_zero in A1, A2. rewrite A1, A2. reflexivity.
    + injection S as <-. apply G.
  - destruct (nth_error (v_handlers s) k) as [h|] eqn:N; [|discriminate].
    destruct (h_pc h) eqn:P; try discriminate. injection S as <-.
    eapply inv_move; eauto; [reflexivity|apply others; auto| |discriminate].
    rewrite !count_snoc. cbn [is_out is_in b2n]. rewrite Nat.eqb_refl. cbn [b2n]. rewrite Nat.add_0_r.
    destruct (H k) as [A _]. rewrite N in A. unfold closes in *. rewrite P in A.
    destruct A as (-> & -> & O). cbn [h_pc h_in h_out]. unfold after_out. rewrite O.
    destruct (h_in h); cbn; auto.
  - destruct (nth_error (v_handlers s) k) as [h|] eqn:N; [|discriminate].
    destruct (h_pc h) eqn:P; try discriminate. injection S as <-.
    eapply inv_move; eauto; [reflexivity|apply others; auto| |discriminate].
    rewrite !count_snoc. cbn [is_out is_in b2n]. rewrite Nat.eqb_refl. cbn [b2n]. rewrite Nat.add_0_r.
    destruct (H k) as [A _]. rewrite N in A. unfold closes in *. rewrite P in A.
    destruct A as (-> & -> & O). cbn [h_pc h_in h_out]. rewrite O. auto.
  - injection S as <-. apply (inv_same ls LStop s); auto.
  - destruct (v_stops s); [discriminate|]. injection S as <-. apply (inv_same ls (LInterrupt lc cc) s); auto.
Qed.
Lemma inv_run : forall ls t k s, run ls (NewServer t k) = Some s -> inv ls s.
Proof.
  intros ls t k. induction ls as [|l ls IH] using rev_ind; intros s H.
  - injection H as <-. intro j. unfold count. cbn. destruct j; cbn; auto.
  - rewrite run_app in H. destruct (run ls (NewServer t k)) as [s1|] eqn:R; [|discriminate].
    cbn [run] in H. destruct (step l s1) as [s2|] eqn:S; [|discriminate]. injection H as <-.
    eapply inv_step; eauto.
Qed.

(** Stop. *)
Definition is_serve (l : label) : bool := match l with LServe => true | _ => false end.
(** Connections taken on in a part of a run: the growth of the handler list. *)
Lemma handlers_mono : forall l s s', step l s = Some s' ->
  length (v_handlers s') = length (v_handlers s) \/
  (v_main s = MAccept /\ length (v_handlers s') = S (length (v_handlers s)) /\ v_main s' <> MAccept).
Proof.
  intros l s s' S. unfold step in S. destruct (v_crashed s); [discriminate|].
  destruct l as [|le| |le ae client|k r|k|k| |lc cc].
  - destruct (v_main s); try discriminate. injection S as <-. left. reflexivity.
  - destruct (v_main s); try discriminate. destruct (do_listen _ _ _) as [e x]. injection S as <-. left. reflexivity.
  - destruct (v_main s); try discriminate. injection S as <-. left. reflexivity.
  - destruct (v_main s) eqn:M; try discriminate. destruct (do_accept _ _ _ _) as [a x].
    destruct (negb a); [injection S as <-; left; reflexivity|].
    destruct client as [[i o]|]; injection S as <-; [|left; reflexivity].
    right. cbn. rewrite app_length. cbn. repeat split; [lia|]. destruct (v_threaded s); discriminate.
  - destruct (nth_error _ _) as [h|]; [|discriminate]. destruct (h_pc h); try discriminate.
    destruct r as [ok e|]; [destruct (_ || _)|]; injection S as <-; left; cbn; rewrite ?upd_length; reflexivity.
  - destruct (nth_error _ _) as [h|]; [|discriminate]. destruct (h_pc h); try discriminate.
    injection S as <-; left; cbn; rewrite ?upd_length; reflexivity.
  - destruct (nth_error _ _) as [h|]; [|discriminate]. destruct (h_pc h); try discriminate.
    injection S as <-; left; cbn; rewrite ?upd_length; reflexivity.
  - injection S as <-. left. reflexivity.
  - destruct (v_stops s); [discriminate|]. injection S as <-. left. reflexivity.
Qed.
Lemma stopped_stays : forall l s s', step l s = Some s' -> is_serve l = false -> v_stopped s = true ->
  v_stopped s' = true /\ (v_main s <> MAccept -> v_main s' <> MAccept).
Proof.
  intros l s s' S N V. unfold step in S. destruct (v_crashed s); [discriminate|].
  assert (Mv : forall k h pc pn, v_stopped (move k h pc pn s) = true /\
    (v_main s <> MAccept -> v_main (move k h pc pn s) <> MAccept)).
  { intros k h pc pn. cbn. split; [assumption|]. intro M. destruct pc; cbn; auto.
    destruct (v_threaded s); cbn; auto. discriminate. }
  destruct l as [|le| |le ae client|k r|k|k| |lc cc]; try discriminate.
  - destruct (v_main s); try discriminate. destruct (do_listen _ _ _) as [[e|] x]; injection S as <-; cbn;
      split; auto; discriminate.
  - destruct (v_main s); try discriminate. rewrite V in S. injection S as <-. cbn. split; auto. discriminate.
  - destruct (v_main s) eqn:M; try discriminate. destruct (do_accept _ _ _ _) as [a x].
    destruct (negb a); [injection S as <-; cbn; split; auto|].
    destruct client as [[i o]|]; injection S as <-; cbn; split; auto; congruence.
  - destruct (nth_error _ _) as [h|]; [|discriminate]. destruct (h_pc h); try discriminate.
    destruct r as [ok e|]; [destruct (_ || _)|]; injection S as <-; auto.
  - destruct (nth_error _ _) as [h|]; [|discriminate]. destruct (h_pc h); try discriminate.
    injection S as <-. auto.
  - destruct (nth_error _ _) as [h|]; [|discriminate]. destruct (h_pc h); try discriminate.
    injection S as <-. auto.
  - injection S as <-. cbn. auto.
  - destruct (v_stops s); [discriminate|]. injection S as <-. cbn. auto.
Qed.
Lemma after_stop : forall ls s s', run ls s = Some s' -> existsb is_serve ls = false -> v_stopped s = true ->
  (length (v_handlers s') <= length (v_handlers s) + match v_main s with MAccept => 1 | _ => 0 end)%nat.
Proof.
  induction ls as [|l ls IH]; intros s s' R N V; cbn [run] in R.
  - injection R as <-. lia.
  - cbn in N. apply orb_false_iff in N. destruct N as [N1 N2].
    destruct (step l s) as [s1|] eqn:S; [|discriminate].
    destruct (stopped_stays _ _ _ S N1 V) as [V1 M1]. specialize (IH _ _ R N2 V1).
    destruct (handlers_mono _ _ _ S) as [E|(E1 & E2 & E3)].
    + rewrite E in IH. destruct (v_main s1) eqn:Q1; destruct (v_main s); try lia;
        exfalso; apply M1; congruence.
    + rewrite E1. destruct (v_main s1); try congruence; lia.
Qed.
(** With TNonblockingServerSocket, once the listener is gone. *)
Lemma after_interrupt : forall ls s s', run ls s = Some s' -> existsb is_serve ls = false ->
  v_kind s = KNonblocking -> v_stopped s = true ->
  (v_main s = MAccept -> ss_listener (v_sock s) = false) ->
  length (v_handlers s') = length (v_handlers s).
Proof.
  induction ls as [|l ls IH]; intros s s' R N K V L; cbn [run] in R.
  - injection R as <-. reflexivity.
  - cbn in N. apply orb_false_iff in N. destruct N as [N1 N2].
    destruct (step l s) as [s1|] eqn:S; [|discriminate].
    destruct (stopped_stays _ _ _ S N1 V) as [V1 M1].
    assert (G : v_kind s1 = KNonblocking /\ (v_main s1 = MAccept -> ss_listener (v_sock s1) = false) /\
                length (v_handlers s1) = length (v_handlers s)).
    { unfold step in S. destruct (v_crashed s); [discriminate|].
      destruct l as [|le| |le ae client|k r|k|k| |lc cc]; try discriminate.
      - destruct (v_main s); try discriminate. destruct (do_listen _ _ _) as [[e|] x]; injection S as <-; cbn;
          repeat split; auto; discriminate.
      - destruct (v_main s); try discriminate. rewrite V in S. injection S as <-. cbn. repeat split; auto; discriminate.
      - destruct (v_main s) eqn:M; try discriminate. rewrite K in S. cbn [do_accept] in S.
        unfold nss_accept in S. rewrite (L eq_refl) in S. cbn [negb] in S. injection S as <-. cbn.
        repeat split; auto; discriminate.
      - destruct (nth_error _ _) as [h|]; [|discriminate]. destruct (h_pc h); try discriminate.
        destruct r as [ok e|]; [destruct (_ || _)|]; injection S as <-; cbn; rewrite ?upd_length; repeat split; auto;
          match goal with |- _ -> _ => intro Q; destruct (after_loop h), (v_threaded s); cbn in Q; auto; discriminate | _ => idtac end.
      - destruct (nth_error _ _) as [h|]; [|discriminate]. destruct (h_pc h); try discriminate.
        injection S as <-; cbn; rewrite ?upd_length; repeat split; auto.
        intro Q; destruct (after_out h), (v_threaded s); cbn in Q; auto; discriminate.
      - destruct (nth_error _ _) as [h|]; [|discriminate]. destruct (h_pc h); try discriminate.
        injection S as <-; cbn; rewrite ?upd_length; repeat split; auto.
        intro Q; destruct (v_threaded s); cbn in Q; auto; discriminate.
      - injection S as <-. cbn. auto.
      - destruct (v_stops s); [discriminate|]. injection S as <-. cbn. repeat split; auto. intro Q.
        rewrite K. cbn [do_interrupt]. specialize (L Q). unfold ss_close. rewrite L.
        destruct (if ss_conn (v_sock s) then cc else None); reflexivity. }
    destruct G as (G1 & G2 & G3). rewrite (IH _ _ R N2 G1 V1 G2). assumption.
Qed.

(** Progress: a connection whose loop has ended can always take its next closing step. *)
Lemma close_enabled : forall s k h, v_crashed s = false -> nth_error (v_handlers s) k = Some h ->
  match h_pc h with
  | HCloseOut => step (LCloseOut k) s <> None
  | HCloseIn => step (LCloseIn k) s <> None
  | _ => True
  end.
Proof.
  intros s k h C N. unfold step. rewrite C, N. destruct (h_pc h); auto; discriminate.
Qed.

(** TSimpleServer works on one connection at a time. *)
Definition seq_inv (s : srv) : Prop := v_threaded s = false ->
  forall k h, nth_error (v_handlers s) k = Some h -> h_pc h <> HDone -> v_main s = MServe k.
Lemma threaded_const : forall l s s', step l s = Some s' -> v_threaded s' = v_threaded s.
Proof.
  intros l s s' S. unfold step in S. destruct (v_crashed s); [discriminate|].
  destruct l as [|le| |le ae client|k r|k|k| |lc cc].
  - destruct (v_main s); try discriminate. injection S as <-. reflexivity.
  - destruct (v_main s); try discriminate. destruct (do_listen _ _ _) as [e x]. injection S as <-. reflexivity.
  - destruct (v_main s); try discriminate. injection S as <-. reflexivity.
  - destruct (v_main s); try discriminate. destruct (do_accept _ _ _ _) as [a x].
    destruct (negb a); [injection S as <-; reflexivity|]. destruct client as [[i o]|]; injection S as <-; reflexivity.
  - destruct (nth_error _ _) as [h|]; [|discriminate]. destruct (h_pc h); try discriminate.
    destruct r as [ok e|]; [destruct (_ || _)|]; injection S as <-; reflexivity.
  - destruct (nth_error _ _) as [h|]; [|discriminate]. destruct (h_pc h); try discriminate. injection S as <-; reflexivity.
  - destruct (nth_error _ _) as [h|]; [|discriminate]. destruct (h_pc h); try discriminate. injection S as <-; reflexivity.
  - injection S as <-. reflexivity.
  - destruct (v_stops s); [discriminate|]. injection S as <-. reflexivity.
Qed.
Lemma seq_move : forall k h pc pn s, nth_error (v_handlers s) k = Some h -> h_pc h <> HDone ->
  seq_inv s -> seq_inv (move k h pc pn s).
Proof.
  intros k h pc pn s N P I T j g G D. cbn [v_threaded move] in T. specialize (I T).
  pose proof (I k h N P) as M. cbn [v_handlers move] in G. destruct (Nat.eq_dec k j) as [<-|J].
  - rewrite (upd_same _ _ _ _ N) in G. injection G as <-. cbn in D. cbn [v_main move].
    rewrite T. destruct pc; cbn; congruence.
  - rewrite upd_other in G by assumption. pose proof (I j g G D) as M2. congruence.
Qed.
Lemma seq_step : forall l s s', step l s = Some s' -> seq_inv s -> seq_inv s'.
Proof.
  intros l s s' S I. unfold step in S. destruct (v_crashed s); [discriminate|].
  assert (Mv : forall k h pc pn, nth_error (v_handlers s) k = Some h -> h_pc h <> HDone -> seq_inv (move k h pc pn s))
    by (intros; apply seq_move; auto).
  assert (Mn : forall s2, v_threaded s2 = v_threaded s -> v_handlers s2 = v_handlers s ->
    (forall k, v_main s <> MServe k) \/ v_main s2 = v_main s -> seq_inv s2).
  { intros s2 T E M T2 k h G D. rewrite E in G. specialize (I ltac:(congruence) k h G D).
    destruct M as [M|M]; [exfalso; eapply M; eauto|congruence]. }
  destruct l as [|le| |le ae client|k r|k|k| |lc cc].
  - destruct (v_main s) eqn:M; try discriminate. injection S as <-. apply Mn; auto. left. discriminate.
  - destruct (v_main s) eqn:M; try discriminate. destruct (do_listen _ _ _) as [e x]. injection S as <-.
    apply Mn; auto. left. discriminate.
  - destruct (v_main s) eqn:M; try discriminate. injection S as <-. apply Mn; auto. left. discriminate.
  - destruct (v_main s) eqn:M; try discriminate. destruct (do_accept _ _ _ _) as [a x].
    destruct (negb a); [injection S as <-; apply Mn; auto; left; discriminate|].
    destruct client as [[i o]|]; injection S as <-; [|apply Mn; auto; left; discriminate].
    intros T k h G D. cbn in T, G |- *. rewrite T.
    destruct (Nat.lt_trichotomy k (length (v_handlers s))) as [L|[L|L]].
    + rewrite nth_error_app1 in G by assumption. specialize (I T k h G D). congruence.
    + now subst k.
    + rewrite nth_error_app2 in G by lia. destruct (k - length (v_handlers s))%nat as [|[|m]] eqn:Q; [lia|discriminate G|discriminate G].
  - destruct (nth_error _ _) as [h|] eqn:N; [|discriminate]. destruct (h_pc h) eqn:P; try discriminate.
    destruct r as [ok e|]; [destruct (_ || _)|]; injection S as <-; auto; apply Mv; auto; congruence.
  - destruct (nth_error _ _) as [h|] eqn:N; [|discriminate]. destruct (h_pc h) eqn:P; try discriminate.
    injection S as <-; apply Mv; auto; congruence.
  - destruct (nth_error _ _) as [h|] eqn:N; [|discriminate]. destruct (h_pc h) eqn:P; try discriminate.
    injection S as <-; apply Mv; auto; congruence.
  - injection S as <-. apply Mn; auto.
  - destruct (v_stops s); [discriminate|]. injection S as <-. apply Mn; auto.
Qed.
Lemma seq_run : forall ls s s', run ls s = Some s' -> seq_inv s -> seq_inv s' /\ v_threaded s' = v_threaded s.
Proof.
  induction ls as [|l ls IH]; intros s s' R I; cbn [run] in R; [injection R as <-; auto|].
  destruct (step l s) as [s1|] eqn:S; [|discriminate].
  destruct (IH _ _ R (seq_step _ _ _ S I)) as [A B]. split; [assumption|].
  rewrite B. eapply threaded_const; eauto.
Qed.
Lemma kind_const : forall ls s s', run ls s = Some s' -> v_kind s' = v_kind s.
Proof.
  induction ls as [|l ls IH]; intros s s' R; cbn [run] in R; [injection R as <-; reflexivity|].
  destruct (step l s) as [s3|] eqn:S; [|discriminate]. rewrite (IH _ _ R). clear R IH.
  unfold step in S. destruct (v_crashed s); [discriminate|].
  destruct l as [|le| |le ae client|k r|k|k| |lc cc0].
  - destruct (v_main s); try discriminate. injection S as <-. reflexivity.
  - destruct (v_main s); try discriminate. destruct (do_listen _ _ _) as [e x]. injection S as <-. reflexivity.
  - destruct (v_main s); try discriminate. injection S as <-. reflexivity.
  - destruct (v_main s); try discriminate. destruct (do_accept _ _ _ _) as [a x].
    destruct (negb a); [injection S as <-; reflexivity|]. destruct client as [[i o]|]; injection S as <-; reflexivity.
  - destruct (nth_error _ _) as [h|]; [|discriminate]. destruct (h_pc h); try discriminate.
    destruct r as [ok e|]; [destruct (_ || _)|]; injection S as <-; reflexivity.
  - destruct (nth_error _ _) as [h|]; [|discriminate]. destruct (h_pc h); try discriminate. injection S as <-; reflexivity.
  - destruct (nth_error _ _) as [h|]; [|discriminate]. destruct (h_pc h); try discriminate. injection S as <-; reflexivity.
  - injection S as <-. reflexivity.
  - destruct (v_stops s); [discriminate|]. injection S as <-. reflexivity.
Qed.
