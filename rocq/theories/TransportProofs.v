(** Lemmas about transports and ReadAll. *)
From Coq Require Import ZArith List Bool Lia.
From Coq Require Import ZifyBool ZifyNat.
From Verif Require Import Base Errors Transport.
Import ListNotations.
Open Scope Z_scope.

(** injection on equations between tuples, without simplifying the components *)
Ltac pinj H :=
  repeat (let H2 := fresh in apply pair_equal_spec in H; destruct H as [H H2]).

(** All data a reading transport will ever deliver. *)
Definition content (r : rt) : bytes := concat (map fst r).
(** Every Read makes progress and fails only at the end of the data. *)
Definition benign (r : rt) : Prop := Forall (fun ev => fst ev <> [] /\ snd ev = None) r.

(** The data up to the first error, and that error: at the end of the events it is io.EOF. *)
Fixpoint upto_error (r : rt) : bytes * err :=
  match r with
  | [] => ([], EEof)
  | (bs, Some e) :: _ => (bs, e)
  | (bs, None) :: r' => (bs ++ fst (upto_error r'), snd (upto_error r'))
  end.

Lemma firstn_pad : forall (l : bytes), pad (length l) l = l.
Proof. intros; unfold pad. rewrite Nat.sub_diag; simpl. apply app_nil_r. Qed.

Lemma pad_exact : forall n (l : bytes), length l = n -> pad n l = l.
Proof. intros; subst; apply firstn_pad. Qed.

Lemma pad_length : forall n d, (length d <= n)%nat -> length (pad n d) = n.
Proof. intros; unfold pad. rewrite app_length, repeat_length; lia. Qed.

(** The loop equation of ReadAllTransport in terms of single Read calls. *)
Lemma read_all_unfold : forall n got e r,
  read_all_loop (S n) got e r =
  let '(bs, e', r') := tread (S n) r in
  match bs with
  | [] => (0, [], match e' with
                  | Some _ => Some (ETransport UNKNOWN_TRANSPORT_EXCEPTION)
                  | None => None end, r')
  | _ => let '(c, d, e'', r'') := read_all_loop (S n - length bs) (got + length bs) e' r' in
         (c, bs ++ d, e'', r'')
  end.
Proof.
  intros n got e r. destruct r as [|[bs e'] r']; [reflexivity|].
  cbn [read_all_loop]. unfold tread. destruct bs as [|b bs]; [reflexivity|].
  destruct (S n <? length (b :: bs))%nat eqn:E.
  - apply Nat.ltb_lt in E.
    change (firstn (S n) (b :: bs)) with (b :: firstn n bs).
    assert (L : length (b :: firstn n bs) = S n).
    { cbn [length] in *. rewrite firstn_length. lia. }
    rewrite L, Nat.sub_diag. destruct (skipn (S n) (b :: bs)); cbn [read_all_loop];
      rewrite app_nil_r; reflexivity.
  - reflexivity.
Qed.

Lemma read_all_loop_benign : forall r n got e,
  benign r ->
  exists r', benign r' /\
    if (n <=? length (content r))%nat
    then read_all_loop n got e r =
           (Z.of_nat (got + n), firstn n (content r), (if (n =? 0)%nat then e else None), r')
         /\ content r' = skipn n (content r)
    else read_all_loop n got e r =
           (0, content r, Some (ETransport UNKNOWN_TRANSPORT_EXCEPTION), r')
         /\ r' = [].
Proof.
  induction r as [|[bs e'] r IH]; intros n got e B.
  - exists []. split; [constructor|]. destruct n; cbn; [rewrite Nat.add_0_r|]; auto.
  - inversion B as [|? ? [Hne He] B']; subst; cbn in Hne, He; subst e'.
    destruct n as [|n].
    + exists ((bs, None) :: r). split; [assumption|]. cbn. rewrite Nat.add_0_r. auto.
    + unfold content. cbn [map fst concat]. fold (content r).
      destruct bs as [|b bs]; [congruence|].
      cbn [read_all_loop]. destruct (S n <? length (b :: bs))%nat eqn:E.
      * apply Nat.ltb_lt in E.
        exists ((skipn (S n) (b :: bs), None) :: r). split.
        { constructor; [|assumption]. split; [|reflexivity]. cbn [fst].
          intro H. apply (f_equal (@length Z)) in H. rewrite skipn_length in H.
          cbn [length] in *. lia. }
        replace (S n <=? length ((b :: bs) ++ content r))%nat with true
          by (symmetry; apply Nat.leb_le; rewrite app_length; lia).
        split.
        -- rewrite firstn_app. replace (S n - length (b :: bs))%nat with O by lia.
           rewrite firstn_O, app_nil_r. reflexivity.
        -- unfold content; cbn [map fst concat]. fold (content r).
           rewrite skipn_app. replace (S n - length (b :: bs))%nat with O by lia.
           reflexivity.
      * apply Nat.ltb_ge in E.
        destruct (IH (S n - length (b :: bs))%nat (got + length (b :: bs))%nat None B')
          as (r' & Br' & H).
        exists r'. split; [assumption|].
        rewrite app_length.
        destruct (S n - length (b :: bs) <=? length (content r))%nat eqn:E2.
        -- apply Nat.leb_le in E2.
           replace (S n <=? length (b :: bs) + length (content r))%nat with true
             by (symmetry; apply Nat.leb_le; lia).
           destruct H as [H1 H2]. rewrite H1. split.
           ++ rewrite firstn_app, (firstn_all2 (b :: bs)) by lia.
              replace (got + length (b :: bs) + (S n - length (b :: bs)))%nat
                with (got + S n)%nat by lia.
              destruct (S n - length (b :: bs) =? 0)%nat; reflexivity.
           ++ rewrite skipn_app, (skipn_all2 (b :: bs)) by lia. exact H2.
        -- apply Nat.leb_gt in E2.
           replace (S n <=? length (b :: bs) + length (content r))%nat with false
             by (symmetry; apply Nat.leb_gt; lia).
           destruct H as [H1 H2]. rewrite H1. auto.
Qed.

(** ReadAll on a benign transport depends only on its content. *)
Lemma read_all_benign : forall r n,
  benign r ->
  exists r', benign r' /\
    if (n <=? length (content r))%nat
    then read_all n r = (Z.of_nat n, firstn n (content r), None, r')
         /\ content r' = skipn n (content r)
    else read_all n r = (0, pad n (content r), Some (ETransport UNKNOWN_TRANSPORT_EXCEPTION), r')
         /\ content r' = [].
Proof.
  intros r n B. destruct (read_all_loop_benign r n 0 None B) as (r' & Br & H).
  exists r'. split; [assumption|]. unfold read_all.
  destruct (n <=? length (content r))%nat eqn:E.
  - apply Nat.leb_le in E. destruct H as [H1 H2]. rewrite H1. cbn [Nat.add].
    rewrite pad_exact by (rewrite firstn_length; lia).
    destruct (n =? 0)%nat; auto.
  - destruct H as [H1 H2]. rewrite H1. subst r'. auto.
Qed.

Lemma read_all_exact : forall r a rest,
  benign r -> content r = a ++ rest ->
  exists r', read_all (length a) r = (Z.of_nat (length a), a, None, r')
             /\ benign r' /\ content r' = rest.
Proof.
  intros r a rest B C. destruct (read_all_benign r (length a) B) as (r' & Br & H).
  rewrite C in H. rewrite app_length in H.
  replace (length a <=? length a + length rest)%nat with true in H
    by (symmetry; apply Nat.leb_le; lia).
  destruct H as [H1 H2]. exists r'.
  rewrite firstn_app, Nat.sub_diag, firstn_O, app_nil_r, firstn_all in H1.
  rewrite skipn_app, Nat.sub_diag, skipn_all in H2. cbn in H2. auto.
Qed.

Lemma read_all_short : forall r n,
  benign r -> (length (content r) < n)%nat ->
  exists r', read_all n r = (0, pad n (content r),
                             Some (ETransport UNKNOWN_TRANSPORT_EXCEPTION), r')
             /\ benign r' /\ content r' = [].
Proof.
  intros r n B L. destruct (read_all_benign r n B) as (r' & Br & H).
  replace (n <=? length (content r))%nat with false in H
    by (symmetry; apply Nat.leb_gt; lia).
  destruct H; eauto.
Qed.

(** Whatever the transport does: ReadAll stores at most n bytes, they are the next bytes
    of the stream, and the unread data shrinks by exactly what was stored. *)
Lemma read_all_loop_any : forall r n got e c d e' r',
  read_all_loop n got e r = (c, d, e', r') ->
  content r = d ++ content r' /\ (length d <= n)%nat /\
  (c = Z.of_nat (got + n) /\ length d = n \/ c = 0 /\ (length d < n)%nat).
Proof.
  induction r as [|[bs e0] r IH]; intros n got e c d e' r' H.
  - destruct n; cbn in H; inversion H; subst; cbn; rewrite ?Nat.add_0_r; intuition lia.
  - destruct n as [|n].
    + cbn in H; inversion H; subst; cbn [app length]. rewrite Nat.add_0_r. intuition lia.
    + cbn [read_all_loop] in H. destruct bs as [|b bs].
      * inversion H; subst; cbn. intuition lia.
      * destruct (S n <? length (b :: bs))%nat eqn:E.
        -- apply Nat.ltb_lt in E. pinj H; subst c d e' r'.
           unfold content; cbn [map fst concat].
           rewrite app_assoc, (firstn_skipn (S n) (b :: bs)).
           assert (L : length (firstn (S n) (b :: bs)) = S n)
             by (rewrite firstn_length; lia).
           rewrite L. split; [reflexivity|]. lia.
        -- apply Nat.ltb_ge in E.
           destruct (read_all_loop (S n - length (b :: bs)) (got + length (b :: bs)) e0 r)
             as [[[c1 d1] e1] r1] eqn:R.
           pinj H; subst c d e' r'.
           apply IH in R. destruct R as (R1 & R2 & R3).
           unfold content in *; cbn [map fst concat]. rewrite R1, app_assoc, app_length.
           split; [reflexivity|]. split; lia.
Qed.

Lemma read_all_any : forall r n c buf e r',
  read_all n r = (c, buf, e, r') ->
  exists d, content r = d ++ content r' /\ buf = pad n d /\ (length d <= n)%nat /\
  (c = Z.of_nat n /\ length d = n \/ c = 0 /\ (length d < n)%nat).
Proof.
  unfold read_all; intros r n c buf e r' H.
  destruct (read_all_loop n 0 None r) as [[[c1 d1] e1] r1] eqn:R.
  pinj H; subst. exists d1.
  apply read_all_loop_any in R. intuition.
Qed.

Lemma read_all_loop_len : forall r n got e c d e' r',
  read_all_loop n got e r = (c, d, e', r') -> (length r' <= length r)%nat.
Proof.
  induction r as [|[bs e0] r IH]; intros n got e c d e' r' H.
  - destruct n; cbn in H; inversion H; subst; cbn; lia.
  - destruct n as [|n]; [cbn in H; inversion H; subst; cbn; lia|].
    cbn [read_all_loop] in H. destruct bs as [|b bs]; [inversion H; subst; cbn; lia|].
    destruct (S n <? length (b :: bs))%nat.
    + pinj H; subst; cbn; lia.
    + destruct (read_all_loop (S n - length (b :: bs)) (got + length (b :: bs)) e0 r)
        as [[[c1 d1] e1] r1] eqn:R.
      pinj H; subst. apply IH in R. cbn. lia.
Qed.

(** ** Writing *)

Lemma twrite_ok : forall bs o,
  twrite bs (MkWt o []) = (Z.of_nat (length bs), None, MkWt (o ++ bs) []).
Proof. reflexivity. Qed.

Lemma copy_block_pos : exists k, copy_block = S k.
Proof.
  exists (Z.to_nat 32767). unfold copy_block.
  change 32768 with (Z.succ 32767). rewrite Z2Nat.inj_succ by lia. reflexivity.
Qed.

Lemma copy_blocks_ok : forall f bs o,
  (length bs <= f)%nat -> copy_blocks f bs (MkWt o []) = (None, MkWt (o ++ bs) []).
Proof.
  destruct copy_block_pos as [k K].
  induction f as [|f IH]; intros bs o L; destruct bs as [|b bs]; cbn [copy_blocks].
  - now rewrite app_nil_r.
  - cbn in L; lia.
  - now rewrite app_nil_r.
  - rewrite twrite_ok. rewrite IH.
    + rewrite <- app_assoc, firstn_skipn. reflexivity.
    + rewrite K. cbn [skipn]. rewrite skipn_length. cbn in L. lia.
Qed.

Lemma copy_n_ok : forall bs o, copy_n bs (MkWt o []) = (None, MkWt (o ++ bs) []).
Proof. intros; apply copy_blocks_ok; lia. Qed.
