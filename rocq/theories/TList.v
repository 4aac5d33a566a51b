(** tlist.go *)
From Coq Require Import ZArith List Bool Lia.
From Coq Require Import ZifyBool ZifyNat.
From Verif Require Import Base Arith F64 Strconv TField GoVal Compare CompareProofs.
Import ListNotations.
Open Scope Z_scope.
Ltac Zify.zify_post_hook ::= Z.div_mod_to_equations.

(** tList, tlist.go:45-48.  append never shares the backing array of another live slice in
    this file, so the slice is a plain list. *)
Record tlist : Type := MkTl { tl_et : Z; tl_l : list any }.

(** s[i] *)
Definition index {A} (l : list A) (i : Z) : outcome A :=
  if i <? 0 then Panic
  else match nth_error l (Z.to_nat i) with Some v => Ok v | None => Panic end.
(** s[i] = v *)
Fixpoint upd {A} (l : list A) (n : nat) (v : A) : list A :=
  match l, n with
  | [], _ => []
  | _ :: l', O => v :: l'
  | a :: l', S n' => a :: upd l' n' v
  end.
Definition store {A} (l : list A) (i : Z) (v : A) : outcome (list A) :=
  if (0 <=? i) && (i <? Z.of_nat (length l)) then Ok (upd l (Z.to_nat i) v) else Panic.
(** s[:i] and s[i:] for i up to len(s) (a larger i up to cap(s) is legal for s[:i], but each
    use below also takes s[i:] or s[i+1:], which panics then). *)
Definition slice_to {A} (l : list A) (i : Z) : outcome (list A) :=
  if (0 <=? i) && (i <=? Z.of_nat (length l)) then Ok (firstn (Z.to_nat i) l) else Panic.
Definition slice_from {A} (l : list A) (i : Z) : outcome (list A) :=
  if (0 <=? i) && (i <=? Z.of_nat (length l)) then Ok (skipn (Z.to_nat i) l) else Panic.

(** NewTList, NewTListDefault: tlist.go:50-58 (the size hint is ignored). *)
Definition NewTList (t s : Z) : tlist := MkTl t [].

(** Len, At: tlist.go:64-70. *)
Definition tl_Len (p : tlist) : Z := Z.of_nat (length (tl_l p)).
Definition tl_At (p : tlist) (i : Z) : outcome any := index (tl_l p) i.

Section Ops.
Variable x : ext.

Definition tl_settype (p : tlist) (d : any) : Z :=
  if IsEmptyType (tl_et p) then TypeFromValue d else tl_et p.

(** Set, tlist.go:72-83. *)
Definition tl_Set (p : tlist) (i : Z) (d : any) : outcome tlist :=
  let et := tl_settype p d in
  ' (v, ok) <- CoerceData x et d ;;
  if (ok : bool) then
    if i <=? Z.of_nat (length (tl_l p)) then
      l' <- store (tl_l p) i v ;; Ok (MkTl et l')
    else Ok (MkTl et (tl_l p ++ [v]))
  else Ok (MkTl et (tl_l p)).

(** Push, tlist.go:85-93. *)
Definition tl_Push (p : tlist) (d : any) : outcome tlist :=
  let et := tl_settype p d in
  ' (v, ok) <- CoerceData x et d ;;
  Ok (MkTl et (if (ok : bool) then tl_l p ++ [v] else tl_l p)).

(** Pop, tlist.go:95-99. *)
Definition tl_Pop (p : tlist) : outcome (any * tlist) :=
  let n := Z.of_nat (length (tl_l p)) in
  v <- index (tl_l p) (n - 1) ;;
  l' <- slice_to (tl_l p) (n - 1) ;;
  Ok (v, MkTl (tl_et p) l').

(** Swap, tlist.go:101-105. *)
Definition tl_Swap (p : tlist) (i j : Z) : outcome tlist :=
  a <- index (tl_l p) i ;;
  b <- index (tl_l p) j ;;
  l1 <- store (tl_l p) i b ;;
  l2 <- store l1 j a ;;
  Ok (MkTl (tl_et p) l2).

(** Insert, tlist.go:107-111: no coercion. *)
Definition tl_Insert (p : tlist) (i : Z) (d : any) : outcome tlist :=
  a <- slice_to (tl_l p) i ;;
  b <- slice_from (tl_l p) i ;;
  Ok (MkTl (tl_et p) (a ++ ([d] ++ b))).

(** Delete, tlist.go:113-115. *)
Definition tl_Delete (p : tlist) (i : Z) : outcome tlist :=
  a <- slice_to (tl_l p) i ;;
  b <- slice_from (tl_l p) (i + 1) ;;
  Ok (MkTl (tl_et p) (a ++ b)).

(** Less, tlist.go:121-124: returns whether the comparison succeeded. *)
Definition tl_Less (fuel : nat) (p : tlist) (i j : Z) : outcome bool :=
  a <- index (tl_l p) i ;;
  b <- index (tl_l p) j ;;
  ' (_, less) <- Compare x fuel (tl_et p) a b ;;
  Ok less.

(** First position whose element satisfies [f]. *)
Fixpoint find_idx (f : any -> outcome bool) (l : list any) (i : Z) : outcome Z :=
  match l with
  | [] => Ok (-1)
  | v :: l' => b <- f v ;; if (b : bool) then Ok i else find_idx f l' (i + 1)
  end.

(** Element test of indexOf (tlist.go:139-233) and of tSet.find (tset.go:118-210) for a coerced
    non-nil [d].  Every container of the library implements Equals(interface{}) through
    Compare, so the later switch is never reached for them. *)
Definition same_elem (fuel : nat) (et : Z) (d : any) (v : any) : outcome bool :=
  if et =? BINARY then
    match d, v with ABytes a, ABytes b => Ok (bytes_Compare a b =? 0) | _, _ => Panic end
  else if IsBaseType et || IsEnum et then go_eq d v
  else
    match d with
    | AList _ _ _ => ' (c, ok) <- Compare x fuel LIST d v ;; Ok (ok && (c =? 0))
    | ASet _ _ _ _ => ' (c, ok) <- Compare x fuel SET d v ;; Ok (ok && (c =? 0))
    | AMap _ _ _ _ _ _ => ' (c, ok) <- Compare x fuel MAP d v ;; Ok (ok && (c =? 0))
    | AStruct _ _ _ _ => ' (c, ok) <- Compare x fuel STRUCT d v ;; Ok (ok && (c =? 0))
    | _ => Ok false
    end.

(** indexOf, Contains: tlist.go:117-119, 139-233. *)
Definition tl_indexOf (fuel : nat) (p : tlist) (d : any) : outcome Z :=
  if is_nil d then find_idx (fun v => Ok (is_nil v)) (tl_l p) 0
  else
    ' (v, ok) <- CoerceData x (tl_et p) d ;;
    if is_nil v || negb ok then Ok (-1)
    else find_idx (same_elem fuel (tl_et p) v) (tl_l p) 0.
Definition tl_Contains (fuel : nat) (p : tlist) (d : any) : outcome bool :=
  i <- tl_indexOf fuel p d ;; Ok (0 <=? i).

End Ops.

(** ** Specification: sequences by position *)

(** The operations, with their results. *)
Inductive lop : Type :=
| LAt (i : Z) | LSet (i : Z) (d : any) | LPush (d : any) | LPop | LSwap (i j : Z)
| LInsert (i : Z) (d : any) | LDelete (i : Z) | LLen.
Inductive lres : Type := RNone | RVal (v : any) | RNum (z : Z).

(** One operation on the object. *)
Definition tl_step (x : ext) (p : tlist) (o : lop) : outcome (lres * tlist) :=
  match o with
  | LAt i => v <- tl_At p i ;; Ok (RVal v, p)
  | LSet i d => q <- tl_Set x p i d ;; Ok (RNone, q)
  | LPush d => q <- tl_Push x p d ;; Ok (RNone, q)
  | LPop => ' (v, q) <- tl_Pop p ;; Ok (RVal v, q)
  | LSwap i j => q <- tl_Swap p i j ;; Ok (RNone, q)
  | LInsert i d => q <- tl_Insert p i d ;; Ok (RNone, q)
  | LDelete i => q <- tl_Delete p i ;; Ok (RNone, q)
  | LLen => Ok (RNum (tl_Len p), p)
  end.

(** What the operations mean on a sequence [l] (a function from positions), given that the
    list's type turns the datum [d] into [conv d].  [l'] is the sequence after. *)
Definition seq (l : list any) (i : Z) : option any :=
  if i <? 0 then None else nth_error l (Z.to_nat i).
Definition inb (l : list any) (i : Z) : Prop := 0 <= i < Z.of_nat (length l).

Definition lspec (conv : any -> any) (l : list any) (o : lop) (r : lres) (l' : list any) : Prop :=
  let n := Z.of_nat (length l) in
  match o with
  | LAt i => (exists v, seq l i = Some v /\ r = RVal v) /\ l' = l
  | LSet i d => r = RNone /\ forall k, seq l' k = if k =? i then Some (conv d) else seq l k
  | LPush d => r = RNone /\ forall k, seq l' k = if k =? n then Some (conv d) else seq l k
  | LPop => (exists v, seq l (n - 1) = Some v /\ r = RVal v) /\
            forall k, seq l' k = if k =? n - 1 then None else seq l k
  | LSwap i j => r = RNone /\
            forall k, seq l' k = if k =? i then seq l j else if k =? j then seq l i else seq l k
  | LInsert i d => r = RNone /\
            forall k, seq l' k = if k <? i then seq l k else if k =? i then Some d else seq l (k - 1)
  | LDelete i => r = RNone /\ forall k, seq l' k = if k <? i then seq l k else seq l (k + 1)
  | LLen => r = RNum n /\ l' = l
  end.

(** The contract: positions inside the sequence (one past the end for Insert), data the
    element type accepts. *)
Definition lpre (accepts : any -> Prop) (l : list any) (o : lop) : Prop :=
  match o with
  | LAt i | LDelete i => inb l i
  | LSet i d => inb l i /\ accepts d
  | LPush d => accepts d
  | LPop => l <> []
  | LSwap i j => inb l i /\ inb l j
  | LInsert i d => 0 <= i <= Z.of_nat (length l)
  | LLen => True
  end.

(** A history with its results. *)
Inductive lrun (conv : any -> any) : list any -> list lop -> list lres -> list any -> Prop :=
| lrun_nil l : lrun conv l [] [] l
| lrun_cons l o r l1 os rs l2 : lspec conv l o r l1 -> lrun conv l1 os rs l2 ->
    lrun conv l (o :: os) (r :: rs) l2.
(** A history that keeps the contract. *)
Fixpoint lok (accepts : any -> Prop) (conv : any -> any) (l : list any) (os : list lop) : Prop :=
  match os with
  | [] => True
  | o :: os' => lpre accepts l o /\ forall r l1, lspec conv l o r l1 -> lok accepts conv l1 os'
  end.

Fixpoint tl_run (x : ext) (p : tlist) (os : list lop) : outcome (list lres * tlist) :=
  match os with
  | [] => Ok ([], p)
  | o :: os' =>
    ' (r, p1) <- tl_step x p o ;;
    ' (rs, p2) <- tl_run x p1 os' ;;
    Ok (r :: rs, p2)
  end.

(** ** Proofs *)
Lemma upd_length : forall A (l : list A) n v, length (upd l n v) = length l.
Proof. induction l; destruct n; cbn; intros; auto. Qed.
Lemma upd_nth : forall A (l : list A) n v k, (n < length l)%nat ->
  nth_error (upd l n v) k = if (k =? n)%nat then Some v else nth_error l k.
Proof.
  induction l as [|a l IH]; intros n v k H; [cbn in H; lia|].
  destruct n, k; cbn; auto. apply IH. cbn in H. lia.
Qed.
Lemma seq_upd : forall l i v k, inb l i ->
  seq (upd l (Z.to_nat i) v) k = if k =? i then Some v else seq l k.
Proof.
  intros l i v k H. unfold seq, inb in *. destruct (Z.ltb_spec k 0).
  - replace (k =? i) with false by lia. reflexivity.
  - rewrite upd_nth by lia.
    destruct (Z.eqb_spec k i), (Nat.eqb_spec (Z.to_nat k) (Z.to_nat i)); try lia; reflexivity.
Qed.
Lemma seq_app : forall a b k,
  seq (a ++ b) k = if k <? Z.of_nat (length a) then seq a k else seq b (k - Z.of_nat (length a)).
Proof.
  intros a b k. unfold seq. destruct (Z.ltb_spec k 0), (Z.ltb_spec k (Z.of_nat (length a))); try lia.
  - reflexivity.
  - apply nth_error_app1. lia.
  - replace (k - Z.of_nat (length a) <? 0) with false by lia.
    rewrite nth_error_app2 by lia. f_equal. lia.
Qed.
Lemma seq_firstn : forall l i k, 0 <= i <= Z.of_nat (length l) ->
  seq (firstn (Z.to_nat i) l) k = if k <? i then seq l k else None.
Proof.
  intros l i k H. unfold seq. destruct (Z.ltb_spec k 0), (Z.ltb_spec k i); try lia; auto.
  - rewrite <- (firstn_skipn (Z.to_nat i) l) at 2.
    rewrite nth_error_app1; [reflexivity|]. rewrite firstn_length. lia.
  - apply nth_error_None. rewrite firstn_length. lia.
Qed.
Lemma seq_skipn : forall l i k, 0 <= i <= Z.of_nat (length l) -> 0 <= k ->
  seq (skipn (Z.to_nat i) l) k = seq l (k + i).
Proof.
  intros l i k H Hk. unfold seq. replace (k <? 0) with false by lia. replace (k + i <? 0) with false by lia.
  rewrite <- (firstn_skipn (Z.to_nat i) l) at 2.
  rewrite nth_error_app2; rewrite firstn_length; [f_equal; lia|lia].
Qed.
Lemma seq_neg : forall l k, k < 0 -> seq l k = None.
Proof. intros. unfold seq. replace (k <? 0) with true by lia. reflexivity. Qed.
Lemma seq_big : forall l k, Z.of_nat (length l) <= k -> seq l k = None.
Proof.
  intros. unfold seq. destruct (k <? 0); [reflexivity|]. apply nth_error_None. lia.
Qed.
Lemma index_seq : forall (l : list any) i, inb l i -> exists v, index l i = Ok v /\ seq l i = Some v.
Proof.
  intros l i H. unfold index, seq, inb in *. replace (i <? 0) with false by lia.
  destruct (nth_error l (Z.to_nat i)) eqn:E; [eauto|]. apply nth_error_None in E. lia.
Qed.
Lemma slice_to_ok : forall A (l : list A) i, 0 <= i <= Z.of_nat (length l) ->
  slice_to l i = Ok (firstn (Z.to_nat i) l).
Proof. intros. unfold slice_to. replace (_ && _) with true by lia. reflexivity. Qed.
Lemma slice_from_ok : forall A (l : list A) i, 0 <= i <= Z.of_nat (length l) ->
  slice_from l i = Ok (skipn (Z.to_nat i) l).
Proof. intros. unfold slice_from. replace (_ && _) with true by lia. reflexivity. Qed.
Lemma store_ok : forall A (l : list A) i v, 0 <= i < Z.of_nat (length l) ->
  store l i v = Ok (upd l (Z.to_nat i) v).
Proof. intros. unfold store. replace (_ && _) with true by lia. reflexivity. Qed.
Lemma firstn_len : forall (l : list any) i, 0 <= i <= Z.of_nat (length l) ->
  Z.of_nat (length (firstn (Z.to_nat i) l)) = i.
Proof. intros. rewrite firstn_length. lia. Qed.

(** One in-contract operation: no panic, the specified effect, the element type kept. *)
Theorem tl_step_ok : forall x conv p o, IsEmptyType (tl_et p) = false ->
  lpre (fun d => CoerceData x (tl_et p) d = Ok (conv d, true)) (tl_l p) o ->
  exists r p', tl_step x p o = Ok (r, p') /\ tl_et p' = tl_et p /\ lspec conv (tl_l p) o r (tl_l p').
Proof.
  intros x conv [et l] o He Hp. cbn [tl_et tl_l] in *.
  destruct o as [i|i d|d| |i j|i d|i|]; cbn [lpre tl_step lspec] in *.
  - destruct (index_seq l i Hp) as (v & E1 & E2). unfold tl_At. cbn [tl_l]. rewrite E1. cbn [obind].
    exists (RVal v), (MkTl et l). split; [reflexivity|]. split; [reflexivity|]. cbn. eauto.
  - destruct Hp as [Hi Hc]. unfold tl_Set, tl_settype. cbn [tl_et tl_l]. rewrite He, Hc. cbn [obind].
    unfold inb in Hi. replace (i <=? Z.of_nat (length l)) with true by lia.
    rewrite store_ok by lia. cbn [obind].
    exists RNone, (MkTl et (upd l (Z.to_nat i) (conv d))).
    split; [reflexivity|]. split; [reflexivity|]. cbn [tl_l]. split; [reflexivity|].
    intros k. apply seq_upd. exact Hi.
  - unfold tl_Push, tl_settype. cbn [tl_et tl_l]. rewrite He, Hp. cbn [obind].
    exists RNone, (MkTl et (l ++ [conv d])).
    split; [reflexivity|]. split; [reflexivity|]. cbn [tl_l]. split; [reflexivity|].
    intros k. rewrite seq_app. destruct (Z.ltb_spec k (Z.of_nat (length l))), (Z.eqb_spec k (Z.of_nat (length l))); try lia.
    + reflexivity.
    + subst k. rewrite Z.sub_diag. reflexivity.
    + rewrite (seq_big l) by lia. apply seq_big. cbn. lia.
  - assert (Hn : (0 < length l)%nat) by (destruct l; [congruence|cbn; lia]).
    destruct (index_seq l (Z.of_nat (length l) - 1)) as (v & E1 & E2); [unfold inb; lia|].
    unfold tl_Pop. cbn [tl_l]. cbv zeta. rewrite E1. cbn [obind]. rewrite slice_to_ok by lia. cbn [obind].
    exists (RVal v), (MkTl et (firstn (Z.to_nat (Z.of_nat (length l) - 1)) l)).
    split; [reflexivity|]. split; [reflexivity|]. cbn [tl_l]. split; [eauto|].
    intros k. rewrite seq_firstn by lia.
    destruct (Z.ltb_spec k (Z.of_nat (length l) - 1)), (Z.eqb_spec k (Z.of_nat (length l) - 1)); try lia; auto.
    symmetry. apply seq_big. lia.
  - destruct Hp as [Hi Hj].
    destruct (index_seq l i Hi) as (a & E1 & E2). destruct (index_seq l j Hj) as (b & E3 & E4).
    unfold tl_Swap. cbn [tl_l]. rewrite E1. cbn [obind]. rewrite E3. cbn [obind].
    unfold inb in Hi, Hj. rewrite store_ok by lia. cbn [obind].
    rewrite store_ok by (rewrite upd_length; lia). cbn [obind].
    eexists RNone, _. split; [reflexivity|]. split; [reflexivity|]. cbn [tl_l]. split; [reflexivity|].
    intros k. rewrite seq_upd by (unfold inb; rewrite upd_length; lia). rewrite seq_upd by exact Hi.
    destruct (Z.eqb_spec k j), (Z.eqb_spec k i); subst; try congruence; auto.
  - unfold tl_Insert. cbn [tl_l]. rewrite slice_to_ok, slice_from_ok by lia. cbn [obind].
    eexists RNone, _. split; [reflexivity|]. split; [reflexivity|]. cbn [tl_l]. split; [reflexivity|].
    intros k. rewrite seq_app, firstn_len by lia. rewrite seq_firstn by lia.
    destruct (Z.ltb_spec k i); [reflexivity|]. rewrite seq_app. cbn [length].
    destruct (Z.eqb_spec k i).
    + subst k. rewrite Z.sub_diag. reflexivity.
    + change (Z.of_nat 1) with 1. replace (k - i <? 1) with false by lia.
      rewrite seq_skipn by lia. f_equal. lia.
  - unfold inb in Hp. unfold tl_Delete. cbn [tl_l]. rewrite slice_to_ok, slice_from_ok by lia. cbn [obind].
    eexists RNone, _. split; [reflexivity|]. split; [reflexivity|]. cbn [tl_l]. split; [reflexivity|].
    intros k. rewrite seq_app, firstn_len by lia. rewrite seq_firstn by lia.
    destruct (Z.ltb_spec k i); [reflexivity|]. rewrite seq_skipn by lia. f_equal. lia.
  - exists (RNum (Z.of_nat (length l))), (MkTl et l). auto.
Qed.

Theorem tl_history : forall x conv os p, IsEmptyType (tl_et p) = false ->
  lok (fun d => CoerceData x (tl_et p) d = Ok (conv d, true)) conv (tl_l p) os ->
  exists rs p', tl_run x p os = Ok (rs, p') /\ tl_et p' = tl_et p /\ lrun conv (tl_l p) os rs (tl_l p').
Proof.
  intros x conv. induction os as [|o os IH]; intros p He Hok; cbn [lok tl_run] in *.
  - exists [], p. repeat split. constructor.
  - destruct Hok as [Hp Hr]. destruct (tl_step_ok x conv p o He Hp) as (r & p1 & E & Et & Sp).
    destruct (IH p1) as (rs & p2 & E2 & Et2 & R).
    { rewrite Et. auto. } { rewrite Et. eapply Hr; eauto. }
    rewrite E. cbn [obind]. rewrite E2. cbn [obind].
    exists (r :: rs), p2. split; [reflexivity|]. split; [congruence|]. econstructor; eauto.
Qed.

(** Operations outside the index contract panic (Set beyond the end appends). *)
Theorem tl_out_of_range : forall x p,
  (forall i, ~ inb (tl_l p) i -> tl_At p i = Panic /\ tl_Delete p i = Panic) /\
  (forall i j, ~ inb (tl_l p) i \/ ~ inb (tl_l p) j -> tl_Swap p i j = Panic) /\
  (forall i d, ~ (0 <= i <= Z.of_nat (length (tl_l p))) -> tl_Insert p i d = Panic) /\
  (tl_l p = [] -> tl_Pop p = Panic) /\
  (forall i d v, IsEmptyType (tl_et p) = false -> CoerceData x (tl_et p) d = Ok (v, true) ->
     (i < 0 \/ i = Z.of_nat (length (tl_l p))) -> tl_Set x p i d = Panic) /\
  (forall i d v, IsEmptyType (tl_et p) = false -> CoerceData x (tl_et p) d = Ok (v, true) ->
     i > Z.of_nat (length (tl_l p)) -> tl_Set x p i d = tl_Push x p d).
Proof.
  intros x [et l]. cbn [tl_et tl_l]. unfold inb.
  assert (Ix : forall i, ~ (0 <= i < Z.of_nat (length l)) -> @index any l i = Panic).
  { intros i H. unfold index. destruct (Z.ltb_spec i 0); [reflexivity|].
    destruct (nth_error l (Z.to_nat i)) eqn:E; [|reflexivity].
    assert (nth_error l (Z.to_nat i) <> None) as N by congruence. apply nth_error_Some in N. lia. }
  repeat split; intros.
  - apply Ix. auto.
  - unfold tl_Delete. cbn [tl_l]. unfold slice_to, slice_from.
    destruct ((0 <=? i) && (i <=? Z.of_nat (length l))) eqn:E; cbn [obind]; [|reflexivity].
    replace ((0 <=? i + 1) && (i + 1 <=? Z.of_nat (length l))) with false by lia. reflexivity.
  - unfold tl_Swap. cbn [tl_l]. destruct H as [H|H].
    + rewrite (Ix i) by lia. reflexivity.
    + assert (C : (exists v, @index any l i = Ok v) \/ @index any l i = Panic).
      { unfold index. destruct (i <? 0); [auto|]. destruct (nth_error l (Z.to_nat i)); eauto. }
      destruct C as [[v C]|C]; rewrite C; cbn [obind]; [|reflexivity].
      rewrite (Ix j) by lia. reflexivity.
  - unfold tl_Insert. cbn [tl_l]. unfold slice_to.
    replace ((0 <=? i) && (i <=? Z.of_nat (length l))) with false by lia. reflexivity.
  - subst l. reflexivity.
  - unfold tl_Set, tl_settype. cbn [tl_et tl_l]. rewrite H, H0. cbn [obind].
    replace (i <=? Z.of_nat (length l)) with true by lia.
    unfold store. replace ((0 <=? i) && (i <? Z.of_nat (length l))) with false by lia. reflexivity.
  - unfold tl_Set, tl_Push, tl_settype. cbn [tl_et tl_l]. rewrite H, H0. cbn [obind].
    replace (i <=? Z.of_nat (length l)) with false by lia. reflexivity.
Qed.

(** Contains of a list of scalars: whether an equal element occurs. *)
Lemma find_idx_spec : forall (f : any -> bool) l i,
  find_idx (fun v => Ok (f v)) l i = Ok (-1) /\ existsb f l = false \/
  exists k, find_idx (fun v => Ok (f v)) l i = Ok k /\ existsb f l = true /\ i <= k.
Proof.
  intros f. induction l as [|v l IH]; intros i; cbn [find_idx existsb obind]; [left; auto|].
  destruct (f v); cbn [orb]; [right; exists i; repeat split; lia|].
  destruct (IH (i + 1)) as [H|(k & H & H1 & H2)]; [left; auto|right; exists k; repeat split; auto; lia].
Qed.
