(** C101: loops over the channel iterators. *)
From Coq Require Import ZArith List Bool Lia Arith.
From Verif Require Import Base TField GoVal TList TMap Iter.
Import ListNotations.
Open Scope nat_scope.

(** A loop that stores nothing ahead of the element it is at: whatever the goroutines' order, it sees the elements as
    they were when it began, each once and in their order, until it is left or they end. *)
Theorem C101_loop : forall A St (body : nat -> A -> St -> bool * St * list (nat * A)) l st s k st' early,
  behind body -> steps body (length l) (begin l st) s -> co s = CLeft k st' early ->
  plain_loop body 0 l st = (k, st', early).
Proof.
  intros A St body l st s k st' early B T E.
  pose proof (inv_steps _ _ _ _ _ _ _ B T (inv_begin _ _ _ l st)) as I.
  pose proof (i_fin _ _ _ _ _ _ I) as F. rewrite E in F. symmetry. exact F.
Qed.
Print Assumptions C101_loop.

(** It comes to its end: no execution is endless, and one that cannot go on is behind the loop. *)
Theorem C101_ends : forall A St (body : nat -> A -> St -> bool * St * list (nat * A)) l st,
  Acc (fun b a => step body (length l) a b) (begin l st) /\
  (behind body -> forall s, steps body (length l) (begin l st) s -> stuck body (length l) s ->
     exists k st' early, co s = CLeft k st' early).
Proof.
  intros A St body l st. split.
  - apply step_acc. intros i v E. discriminate.
  - intros B s T K. pose proof (inv_steps _ _ _ _ _ _ _ B T (inv_begin _ _ _ l st)) as I.
    destruct (stuck_left _ _ _ _ _ _ I K) as (k & st' & e & E & _). eauto.
Qed.
Print Assumptions C101_ends.

(** The iterator's goroutine ends exactly if the loop has seen every element; otherwise it waits for ever to send the
    next one. *)
Theorem C101_goroutine_iff : forall A St (body : nat -> A -> St -> bool * St * list (nat * A)) l st s k st' early,
  behind body -> steps body (length l) (begin l st) s -> stuck body (length l) s ->
  plain_loop body 0 l st = (k, st', early) ->
  (pr s = PDone <-> k = length l) /\
  (k <> length l -> exists v, nth_error l k = Some v /\ pr s = PSend k v).
Proof.
  intros A St body l st s k st' early B T K E.
  pose proof (inv_steps _ _ _ _ _ _ _ B T (inv_begin _ _ _ l st)) as I.
  destruct (stuck_left _ _ _ _ _ _ I K) as (k1 & st1 & e1 & C & D).
  rewrite (C101_loop _ _ _ _ _ _ _ _ _ B T C) in E. injection E as -> -> ->.
  destruct D as [[-> D]|(L & v & Hv & D)]; rewrite D.
  - split; [split; auto|]. congruence.
  - split; [split; [discriminate|lia]|]. eauto.
Qed.
Print Assumptions C101_goroutine_iff.

(** The loop of generated Write functions, t_go_generator.cc:2895-2899 and 2917-2921: [w] writes an element; an error
    makes the function return. *)
Definition write_loop {A St E} (w : A -> St -> option E * St) : nat -> A -> St * option E -> bool * (St * option E) * list (nat * A) :=
  fun _ v st => let '(e, s') := w v (fst st) in
    match e with None => (true, (s', None), []) | Some _ => (false, (s', e), []) end.
Inductive writes {A St E} (w : A -> St -> option E * St) : list A -> St -> St -> Prop :=
| ws_nil s : writes w [] s s
| ws_cons v l s s1 s2 : w v s = (None, s1) -> writes w l s1 s2 -> writes w (v :: l) s s2.
Lemma write_behind : forall A St E (w : A -> St -> option E * St), behind (write_loop w).
Proof.
  intros A St E w k v [s o] go st' ws H. unfold write_loop in H. cbn [fst] in H.
  destruct (w v s) as [[e|] s']; injection H as <- <- <-; constructor.
Qed.
Lemma write_plain : forall A St E (w : A -> St -> option E * St) l s s1, writes w l s s1 -> forall k l2,
  plain_loop (write_loop w) k (l ++ l2) (s, None) = plain_loop (write_loop w) (k + length l) l2 (s1, None).
Proof.
  intros A St E w l s s1 H. induction H as [s|v l s s1 s2 Hw H IH]; intros k l2.
  - cbn [app length]. rewrite Nat.add_0_r. reflexivity.
  - cbn [app plain_loop length]. unfold write_loop at 1. cbn [fst]. rewrite Hw, IH. f_equal. lia.
Qed.
(** If every element is written, the function goes on with the last state and the goroutine ends.  If one fails, the
    function returns its error, and the goroutine ends only if that was the last element. *)
Theorem C101_write : forall A St E (w : A -> St -> option E * St) l s sys,
  steps (write_loop w) (length l) (begin l (s, None)) sys -> stuck (write_loop w) (length l) sys ->
  (forall s', writes w l s s' -> co sys = CLeft (length l) (s', None) false /\ pr sys = PDone) /\
  (forall l1 v l2 s1 e s2, l = l1 ++ v :: l2 -> writes w l1 s s1 -> w v s1 = (Some e, s2) ->
     co sys = CLeft (length l1 + 1) (s2, Some e) true /\
     match l2 with [] => pr sys = PDone | u :: _ => pr sys = PSend (length l1 + 1) u end).
Proof.
  intros A St E w l s sys T K. pose proof (write_behind A St E w) as B.
  destruct (proj2 (C101_ends _ _ _ l (s, None)) B sys T K) as (k & st & e & C).
  pose proof (C101_loop _ _ _ _ _ _ _ _ _ B T C) as L.
  destruct (C101_goroutine_iff _ _ _ _ _ _ _ _ _ B T K L) as [G1 G2]. split.
  - intros s' W. pose proof (write_plain _ _ _ _ _ _ _ W 0 []) as P. rewrite app_nil_r in P. cbn [plain_loop] in P.
    rewrite L in P. injection P as -> -> ->. split; [exact C|]. apply G1. reflexivity.
  - intros l1 v l2 s1 e1 s2 -> W F. rewrite (write_plain _ _ _ _ _ _ _ W 0 (v :: l2)) in L. cbn [plain_loop] in L.
    unfold write_loop at 1 in L. cbn [fst] in L. rewrite F in L. injection L as <- <- <-.
    split; [exact C|]. rewrite app_length in G1, G2. cbn [length] in G1, G2. destruct l2 as [|u l2].
    + apply G1. cbn. lia.
    + destruct G2 as (u' & Hu & P); [cbn; lia|]. cbn in P. rewrite P. f_equal.
      change (0 + length l1 + 1) with (length l1 + 1) in Hu. rewrite nth_error_app2 in Hu by lia.
      replace (length l1 + 1 - length l1) with 1 in Hu by lia. cbn in Hu. congruence.
Qed.
Print Assumptions C101_write.

Lemma not_mem : forall k l, ~ In k l -> mem k l = false.
Proof.
  intros k l H. unfold mem. destruct (existsb _ l) eqn:E; [|reflexivity]. apply existsb_exists in E as (y & Hy & Q).
  apply Z.eqb_eq in Q. subst. contradiction.
Qed.
(** Maps: key types with elements are gone through as lists are; STOP and VOID give no element; any other key type
    (MAP, ENUM, ...) kills the program, whatever the caller does. *)
Theorem C101_map : forall A St (body : nat -> A -> St -> bool * St * list (nat * A)) kt es st,
  (In kt [BOOL; BYTE; I16; I32; I64; DOUBLE; STRING; UTF8; UTF16; BINARY; STRUCT; LIST; SET] ->
     begin_map kt es st = begin es st) /\
  (In kt [STOP; VOID] -> forall s, steps body (length es) (begin_map kt es st) s -> stuck body (length es) s ->
     co s = CLeft 0 st false /\ pr s = PDone) /\
  (~ In kt [BOOL; BYTE; I16; I32; I64; DOUBLE; STRING; UTF8; UTF16; BINARY; STRUCT; LIST; SET; STOP; VOID] ->
     forall s, steps body (length es) (begin_map kt es st) s -> stuck body (length es) s ->
     co s = CWait 0 st /\ pr s = PPanic).
Proof.
  intros A St body kt es st. split; [|split].
  - intros H. cbn in H. repeat (destruct H as [<-|H]; [reflexivity|]). destruct H.
  - intros H. assert (E : begin_map kt es st = MkSys es (PAt (length es)) (CWait 0 st)).
    { cbn in H. repeat (destruct H as [<-|H]; [reflexivity|]). destruct H. }
    rewrite E. clear E.
    assert (G : forall s s', step body (length es) s s' ->
      (s = MkSys es (PAt (length es)) (CWait 0 st) \/ s = MkSys es PDone (CWait 0 st) \/ s = MkSys es PDone (CLeft 0 st false)) ->
      (s' = MkSys es (PAt (length es)) (CWait 0 st) \/ s' = MkSys es PDone (CWait 0 st) \/ s' = MkSys es PDone (CLeft 0 st false))).
    { intros s s' T [-> | [-> | ->]]; inversion T; subst; auto; lia. }
    assert (Q : forall s s', steps body (length es) s s' ->
      (s = MkSys es (PAt (length es)) (CWait 0 st) \/ s = MkSys es PDone (CWait 0 st) \/ s = MkSys es PDone (CLeft 0 st false)) ->
      (s' = MkSys es (PAt (length es)) (CWait 0 st) \/ s' = MkSys es PDone (CWait 0 st) \/ s' = MkSys es PDone (CLeft 0 st false))).
    { intros s s' T. induction T; intros I; [exact I|]. apply IHT. eapply G; eauto. }
    intros s T K. destruct (Q _ _ T (or_introl eq_refl)) as [-> | [-> | ->]].
    + exfalso. eapply K. apply s_close.
    + exfalso. eapply K. apply s_end.
    + auto.
  - intros H. assert (E : begin_map kt es st = MkSys es PBad (CWait 0 st)).
    { unfold begin_map, iterates. rewrite !not_mem; [reflexivity|intros X; apply H; cbn in *; tauto..]. }
    rewrite E. intros s T K. inversion T as [|? s1 ? T1 T2]; subst; [exfalso; eapply K, s_panic|].
    inversion T1; subst. inversion T2 as [|? ? ? T3 _]; subst; [auto|]. inversion T3.
Qed.
Print Assumptions C101_map.

Ltac go1 := eapply st_step;
  [first [apply s_again; discriminate|apply s_leave; discriminate|apply s_end|apply s_pass; reflexivity
         |apply s_close|apply s_read; [cbn; lia|reflexivity]]|];
  cbn [put upd fst snd Nat.add].
Ltac store1 := eapply st_step; [apply s_store; discriminate|]; cbn [put upd fst snd].
Definition collect (ws : nat -> list (nat * Z)) : nat -> Z -> list Z -> bool * list Z * list (nat * Z) :=
  fun k v st => (true, st ++ [v], ws k).

Example C101_ex :
  behind (collect (fun k => [(k, 7%Z)])) /\
  (exists s, steps (collect (fun k => [(k, 7%Z)])) 2 (begin [1; 2]%Z []) s /\
     co s = CLeft 2 [1; 2]%Z false /\ pr s = PDone /\ arr s = [7; 7]%Z) /\
  plain_loop (collect (fun k => [(k, 7%Z)])) 0 [1; 2]%Z [] = (2, [1; 2]%Z, false).
Proof.
  split; [|split; [|reflexivity]].
  - intros k v st go st' ws H. unfold collect in H. injection H as <- <- <-. constructor; [cbn; lia|constructor].
  - eexists. split.
    + go1. go1. go1. store1. go1. go1. store1. go1. go1. go1. apply st_refl.
    + repeat split.
Qed.

(** A store ahead of the element the loop is at may or may not be seen. *)
Theorem C101_store_refuted : exists body (l : list Z), 
  (exists s, steps body (length l) (begin l []) s /\ co s = CLeft 2 [1; 2]%Z false) /\
  (exists s, steps body (length l) (begin l []) s /\ co s = CLeft 2 [1; 9]%Z false).
Proof.
  exists (collect (fun k => if k =? 0 then [(1, 9%Z)] else [])), [1; 2]%Z. split; eexists.
  - split; [go1; go1; go1; store1; go1; go1; go1; go1; go1; apply st_refl|reflexivity].
  - split; [go1; go1; store1; go1; go1; go1; go1; go1; go1; apply st_refl|reflexivity].
Qed.
Print Assumptions C101_store_refuted.

(** Deleting the element the loop is at: the rest of the list may be seen whole, or without its first element and with
    its last one twice.  Delete(0) of a, b, c moves b and c one cell down (append(p.l[:0], p.l[1:]...), tlist.go:114-116). *)
Theorem C101_delete_refuted : exists body (a b c : any),
  (forall st, body 0 a st = (true, st ++ [a], [(0, b); (1, c)])) /\
  tl_Delete (MkTl I32 [a; b; c]) 0 = Ok (MkTl I32 [b; c]) /\
  firstn 2 (fold_left (put any) [(0, b); (1, c)] [a; b; c]) = [b; c] /\
  b <> c /\
  (exists s, steps body 3 (begin [a; b; c] []) s /\ co s = CLeft 3 [a; b; c] false) /\
  (exists s, steps body 3 (begin [a; b; c] []) s /\ co s = CLeft 3 [a; c; c] false).
Proof.
  exists (fun k v st => (true, st ++ [v], if k =? 0 then [(0, AInt32 2); (1, AInt32 3)] else [])),
    (AInt32 1), (AInt32 2), (AInt32 3).
  split; [reflexivity|]. split; [reflexivity|]. split; [reflexivity|]. split; [discriminate|].
  split; eexists.
  - split; [go1; go1; go1; store1; store1; go1; go1; go1; go1; go1; go1; go1; go1; apply st_refl|reflexivity].
  - split; [go1; go1; store1; store1; go1; go1; go1; go1; go1; go1; go1; go1; go1; apply st_refl|reflexivity].
Qed.
Print Assumptions C101_delete_refuted.

(** A failing Write leaves a goroutine behind: of a list of three elements the second cannot be written. *)
Definition fails_at (bad : Z) (v : Z) (out : list Z) : option err * list Z :=
  if (v =? bad)%Z then (Some (EOther 1), out) else (None, out ++ [v]).
Theorem C101_write_refuted : exists (w : Z -> list Z -> option err * list Z) l s,
  steps (write_loop w) (length l) (begin l ([], None)) s /\ stuck (write_loop w) (length l) s /\
  co s = CLeft 2 ([1%Z], Some (EOther 1)) true /\ pr s = PSend 2 3%Z.
Proof.
  exists (fails_at 2), [1; 2; 3]%Z. eexists. split; [go1; go1; go1; go1; go1; go1; go1; apply st_refl|].
  split; [intros s' T; inversion T|split; reflexivity].
Qed.
Print Assumptions C101_write_refuted.
(** Hypotheses of C101_write. *)
Example C101_write_ex : writes (fails_at 2) [1]%Z [] [1%Z] /\ fails_at 2 2 [1%Z] = (Some (EOther 1), [1%Z]) /\
  writes (fails_at 4) [1; 2; 3]%Z [] [1; 2; 3]%Z.
Proof.
  split; [econstructor; [reflexivity|constructor]|]. split; [reflexivity|].
  do 3 (econstructor; [reflexivity|]). constructor.
Qed.
