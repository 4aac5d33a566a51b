(** The channel iterators: tList.Iter (tlist.go:126-137), tMap.Iter, KeyIter, ValueIter (tmap.go:563-734) and
    tFieldContainer.Iter (tfield.go:266-279), with the loops [for v := range c.Iter() { ... }] that use them
    (tmap.go:749-769, ttype.go:415, t_go_generator.cc:2895-2920).  Elsewhere in the model such a loop is the
    loop over the list of elements; here it is two goroutines and an unbuffered channel.

    Simplifications: one iterator and one loop; the loop's goroutine is the only other one that writes to the
    container, and its writes are stores into existing cells of the slice the iterator goes through (tList.Set,
    Swap, and Delete, which moves cells); memory is sequentially consistent; the elements of a map are a list in
    the order Go picked, and are not changed during the loop. *)
From Coq Require Import ZArith List Bool Lia Arith.
From Verif Require Import Base TField GoVal TList.
Import ListNotations.
Open Scope nat_scope.

Section Iterate.
Variable A St : Type.
(** The body of the loop: from the number of elements before, the element and the state of the caller, whether
    to go on (false: return or break), the new state and the stores it does. *)
Variable body : nat -> A -> St -> bool * St * list (nat * A).

(** The iterating goroutine. *)
Inductive prod : Type :=
| PAt (i : nat)                  (* at the loop's head: reads cell i, or closes *)
| PSend (i : nat) (v : A)        (* c <- v *)
| PDone                          (* after close(c) *)
| PBad                           (* before panic("Invalid Thrift type"), tmap.go:611 *)
| PPanic.                        (* the program is dead *)
(** The goroutine of the loop. *)
Inductive cons : Type :=
| CWait (k : nat) (st : St)                                     (* <-c *)
| CBody (k : nat) (go : bool) (ws : list (nat * A)) (st : St)   (* in the body *)
| CLeft (k : nat) (st : St) (early : bool).                     (* behind the loop *)
Record sys : Type := MkSys { arr : list A; pr : prod; co : cons }.

Definition put (l : list A) (w : nat * A) : list A := upd l (fst w) (snd w).

(** One step of one of them, or of both at the channel.  [n] is the length of the slice when the loop of the
    iterator began: [range p.l] looks at p.l once. *)
Inductive step (n : nat) : sys -> sys -> Prop :=
| s_read a i v c : i < n -> nth_error a i = Some v -> step n (MkSys a (PAt i) c) (MkSys a (PSend i v) c)
| s_close a c : step n (MkSys a (PAt n) c) (MkSys a PDone c)
| s_pass a i v k st go st' ws : body k v st = (go, st', ws) ->
    step n (MkSys a (PSend i v) (CWait k st)) (MkSys a (PAt (i + 1)) (CBody k go ws st'))
| s_end a k st : step n (MkSys a PDone (CWait k st)) (MkSys a PDone (CLeft k st false))
| s_store a p k go w ws st : p <> PPanic ->
    step n (MkSys a p (CBody k go (w :: ws) st)) (MkSys (put a w) p (CBody k go ws st))
| s_again a p k st : p <> PPanic -> step n (MkSys a p (CBody k true [] st)) (MkSys a p (CWait (k + 1) st))
| s_leave a p k st : p <> PPanic -> step n (MkSys a p (CBody k false [] st)) (MkSys a p (CLeft (k + 1) st true))
| s_panic a c : step n (MkSys a PBad c) (MkSys a PPanic c).

Inductive steps (n : nat) : sys -> sys -> Prop :=
| st_refl s : steps n s s
| st_step s s1 s2 : step n s s1 -> steps n s1 s2 -> steps n s s2.

(** The start of [for v := range p.Iter()]. *)
Definition begin (l : list A) (st : St) : sys := MkSys l (PAt 0) (CWait 0 st).
(** The same for a map: by key type, tmap.go:564-612. *)
Definition iterates (kt : Z) : bool :=
  mem kt [BOOL; BYTE; I16; I32; I64; DOUBLE; STRING; UTF8; UTF16; BINARY; STRUCT; LIST; SET].
Definition begin_map (kt : Z) (es : list A) (st : St) : sys :=
  MkSys es (if mem kt [STOP; VOID] then PAt (length es) else if iterates kt then PAt 0 else PBad) (CWait 0 st).

(** ** Specification *)

(** The loop without channel and goroutine: how many elements it saw, the state behind it and whether it was left
    before the end. *)
Fixpoint plain_loop (k : nat) (l : list A) (st : St) : nat * St * bool :=
  match l with
  | [] => (k, st, false)
  | v :: l' => let '(go, st', _) := body k v st in if go then plain_loop (k + 1) l' st' else (k + 1, st', true)
  end.

(** ** Proofs *)

(** The body stores nothing ahead of where the loop is. *)
Definition behind : Prop := forall k v st go st' ws, body k v st = (go, st', ws) -> Forall (fun w => fst w <= k) ws.

Definition delivered (c : cons) : nat :=
  match c with CWait k _ => k | CBody k _ _ _ => k + 1 | CLeft k _ _ => k end.
Definition finish (l : list A) (c : cons) : nat * St * bool :=
  match c with
  | CWait k st => plain_loop k (skipn k l) st
  | CBody k go _ st => if go then plain_loop (k + 1) (skipn (k + 1) l) st else (k + 1, st, true)
  | CLeft k st e => (k, st, e)
  end.
Record inv (l : list A) (r : nat * St * bool) (s : sys) : Prop := {
  i_len : length (arr s) = length l;
  i_arr : forall j, delivered (co s) <= j -> nth_error (arr s) j = nth_error l j;
  i_pr : match pr s with
         | PAt i => i = delivered (co s) /\ i <= length l
         | PSend i v => i = delivered (co s) /\ nth_error l i = Some v
         | PDone => delivered (co s) = length l
         | _ => False
         end;
  i_co : match co s with
         | CBody k _ ws _ => Forall (fun w => fst w <= k) ws
         | CLeft _ _ false => delivered (co s) = length l
         | _ => True
         end;
  i_fin : finish l (co s) = r
}.

Lemma upd_length : forall (l : list A) j v, length (upd l j v) = length l.
Proof. induction l as [|a l IH]; intros [|j] v; cbn; auto. Qed.
Lemma upd_other : forall (l : list A) j v i, i <> j -> nth_error (upd l j v) i = nth_error l i.
Proof.
  induction l as [|a l IH]; intros [|j] v [|i] H; cbn; auto; try congruence.
Qed.
Lemma skipn_nth : forall (l : list A) i v, nth_error l i = Some v -> skipn i l = v :: skipn (i + 1) l.
Proof.
  induction l as [|a l IH]; intros [|i] v H; try discriminate; cbn in *; [congruence|]. apply IH, H.
Qed.

Lemma inv_begin : forall l st, inv l (plain_loop 0 l st) (begin l st).
Proof.
  intros l st. constructor; try reflexivity; cbn; auto. split; lia.
Qed.
Lemma inv_step : forall l r s s', behind -> step (length l) s s' -> inv l r s -> inv l r s'.
Proof.
  intros l r s s' B T [I1 I2 I3 I4 I5].
  destruct T as [a i v c Hi Hv|a c|a i v k st go st' ws Hb|a k st|a p k go w ws st Np|a p k st Np|a p k st Np|a c];
    cbn [arr pr co delivered finish] in *.
  - destruct I3 as [-> I3]. constructor; cbn [arr pr co]; auto. split; [auto|]. rewrite <- I2; auto.
  - destruct I3 as [E _]. constructor; cbn [arr pr co]; auto.
  - destruct I3 as [-> Hv].
    assert (k < length l) by (apply nth_error_Some; congruence).
    constructor; cbn [arr pr co delivered finish]; auto.
    + intros j Hj. apply I2. lia.
    + split; lia.
    + eapply B, Hb.
    + rewrite <- I5, (skipn_nth l k v Hv). cbn [plain_loop]. rewrite Hb. reflexivity.
  - constructor; cbn [arr pr co delivered finish]; auto. rewrite <- I5, I3, skipn_all. reflexivity.
  - inversion I4 as [|? ? Hw Hws]; subst. constructor; cbn [arr pr co delivered finish]; auto.
    + unfold put. rewrite upd_length. exact I1.
    + intros j Hj. unfold put. rewrite upd_other by lia. apply I2, Hj.
  - constructor; cbn [arr pr co delivered finish]; auto.
  - constructor; cbn [arr pr co delivered finish]; auto.
  - destruct I3.
Qed.
Lemma inv_steps : forall l r s s', behind -> steps (length l) s s' -> inv l r s -> inv l r s'.
Proof. intros l r s s' B T. induction T; intros I; [exact I|]. apply IHT. eapply inv_step; eauto. Qed.

(** What is left to do. *)
Definition left_elems (n : nat) (p : prod) : nat :=
  match p with PAt i | PSend i _ => S (n - i) | PBad => 1 | _ => 0 end.
Definition left_here (p : prod) (c : cons) : nat :=
  match p with PAt _ => 1 | _ => 0 end +
  match c with CWait _ _ => 1 | CBody _ _ ws _ => 2 + length ws | CLeft _ _ _ => 0 end.
Lemma step_left : forall n s s', step n s s' -> (forall i v, pr s = PSend i v -> i < n) ->
  left_elems n (pr s') < left_elems n (pr s) \/
  left_elems n (pr s') = left_elems n (pr s) /\ left_here (pr s') (co s') < left_here (pr s) (co s).
Proof.
  intros n s s' T Hs. destruct T; cbn [pr co] in *; unfold left_elems, left_here; cbn [length].
  - right. split; [reflexivity|]. apply Nat.lt_succ_diag_r.
  - left. lia.
  - left. specialize (Hs i v eq_refl). lia.
  - right. split; [reflexivity|]. lia.
  - right. split; [reflexivity|]. lia.
  - right. split; [reflexivity|]. lia.
  - right. split; [reflexivity|]. lia.
  - left. lia.
Qed.
Definition sends_in (n : nat) (s : sys) : Prop := forall i v, pr s = PSend i v -> i < n.
Lemma sends_step : forall n s s', step n s s' -> sends_in n s -> sends_in n s'.
Proof.
  intros n s s' T H i v E. destruct T; cbn [pr] in *; try (apply (H i v E)); try congruence.
Qed.
(** There are no endless executions. *)
Lemma step_acc : forall n s, sends_in n s -> Acc (fun b a => step n a b) s.
Proof.
  intros n s.
  remember (left_elems n (pr s)) as e eqn:Ee. revert s Ee.
  induction e as [e IHe] using lt_wf_ind. intros s Ee.
  remember (left_here (pr s) (co s)) as h eqn:Eh. revert s Ee Eh.
  induction h as [h IHh] using lt_wf_ind. intros s Ee Eh Hs. constructor. intros s' T.
  pose proof (sends_step _ _ _ T Hs) as Hs'.
  destruct (step_left n s s' T Hs) as [L|[L1 L2]].
  - eapply IHe; [|reflexivity|exact Hs']. lia.
  - eapply IHh; [|congruence|reflexivity|exact Hs']. lia.
Qed.

Definition stuck (n : nat) (s : sys) : Prop := forall s', ~ step n s s'.
(** A state without a step, of the loops [behind] describes. *)
Lemma stuck_left : forall l r s, inv l r s -> stuck (length l) s ->
  exists k st e, co s = CLeft k st e /\
    (k = length l /\ pr s = PDone \/ k < length l /\ exists v, nth_error l k = Some v /\ pr s = PSend k v).
Proof.
  intros l r [a p c] [I1 I2 I3 I4 I5] K. cbn [arr pr co] in *.
  assert (P : p <> PPanic) by (intros ->; exact I3).
  destruct c as [k st|k go ws st|k st e].
  - exfalso. destruct p as [i|i v| | |]; cbn [delivered] in *; try contradiction.
    + destruct I3 as [-> I3]. destruct (Nat.eq_dec k (length l)) as [->|N].
      * eapply K. apply s_close.
      * destruct (nth_error a k) eqn:E; [eapply K, s_read; [lia|exact E]|]. apply nth_error_None in E. lia.
    + destruct (body k v st) as [[go st'] ws] eqn:E. eapply K, s_pass, E.
    + eapply K, s_end.
  - exfalso. destruct ws as [|w ws]; [destruct go|]; eapply K; constructor; exact P.
  - exists k, st, e. split; [reflexivity|]. cbn [delivered] in *.
    destruct p as [i|i v| | |]; try contradiction.
    + destruct I3 as [-> I3]. exfalso. destruct (Nat.eq_dec k (length l)) as [->|N].
      * eapply K. apply s_close.
      * destruct (nth_error a k) eqn:E; [eapply K, s_read; [lia|exact E]|]. apply nth_error_None in E. lia.
    + destruct I3 as [-> I3]. right. split; [apply nth_error_Some; congruence|]. eauto.
    + left. auto.
Qed.
End Iterate.
Arguments PAt {A}. Arguments PSend {A}. Arguments PDone {A}. Arguments PBad {A}. Arguments PPanic {A}.
Arguments CWait {A St}. Arguments CBody {A St}. Arguments CLeft {A St}.
Arguments MkSys {A St}. Arguments arr {A St}. Arguments pr {A St}. Arguments co {A St}.
Arguments step {A St}. Arguments steps {A St}. Arguments begin {A St}. Arguments begin_map {A St}.
Arguments plain_loop {A St}. Arguments behind {A St}. Arguments stuck {A St}.
