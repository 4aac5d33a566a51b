(** Go's bufio.Writer and bufio.Reader (bufio/bufio.go of the Go 1 library) with the default
    buffer of 4096 bytes. *)
From Coq Require Import ZArith List Bool Lia.
From Coq Require Import ZifyBool ZifyNat.
From Verif Require Import Base Transport.
Import ListNotations.
Open Scope Z_scope.

(** bufio.defaultBufSize *)
Definition buf_size : nat := Z.to_nat 4096.

(** ** Writer *)
(** b.buf[0:b.n], b.err and the wrapped writer *)
Record bufw : Type := MkBw { bw_buf : bytes; bw_err : option err; bw_w : wt }.
(** bufio.NewWriter *)
Definition NewBufWriter (w : wt) : bufw := MkBw [] None w.
(** Flush *)
Definition bw_flush (b : bufw) : option err * bufw :=
  match bw_err b with
  | Some e => (Some e, b)
  | None =>
    match bw_buf b with
    | [] => (None, b)
    | _ =>
      let '(n, e, w') := twrite (bw_buf b) (bw_w b) in
      match e with
      | Some e => (Some e, MkBw (skipn (Z.to_nat n) (bw_buf b)) (Some e) w')
      | None => (None, MkBw [] None w')
      end
    end
  end.
(** The loop of Write; [nn] counts what was taken.  After at most one round the buffer is empty
    and the next round hands over the rest directly, so three rounds suffice. *)
Fixpoint bw_write_loop (fuel nn : nat) (p : bytes) (b : bufw) : nat * bytes * bufw :=
  match fuel with
  | O => (nn, p, b)
  | S f =>
    if (buf_size - length (bw_buf b) <? length p)%nat && match bw_err b with None => true | _ => false end
    then
      match bw_buf b with
      | [] =>
        let '(n, e, w') := twrite p (bw_w b) in
        bw_write_loop f (nn + Z.to_nat n) (skipn (Z.to_nat n) p) (MkBw [] e w')
      | _ =>
        let k := (buf_size - length (bw_buf b))%nat in
        let '(_, b1) := bw_flush (MkBw (bw_buf b ++ firstn k p) None (bw_w b)) in
        bw_write_loop f (nn + k) (skipn k p) b1
      end
    else (nn, p, b)
  end.
(** Write *)
Definition bw_write (p : bytes) (b : bufw) : Z * option err * bufw :=
  let '(nn, rest, b1) := bw_write_loop 3 0 p b in
  match bw_err b1 with
  | Some e => (Z.of_nat nn, Some e, b1)
  | None => (Z.of_nat (nn + length rest), None, MkBw (bw_buf b1 ++ rest) None (bw_w b1))
  end.

(** ** Reader *)
(** b.buf[b.r:b.w], b.err and the wrapped reader *)
Record bufr : Type := MkBr { br_buf : bytes; br_err : option err; br_r : rt }.
(** bufio.NewReader *)
Definition NewBufReader (r : rt) : bufr := MkBr [] None r.
(** fill, after sliding the unread bytes to the front.
    Simplification: Go gives up with io.ErrNoProgress after 100 reads of (0, nil) in a row. *)
Definition br_fill (b : bufr) : bufr :=
  let '(d, e, r') := tread (buf_size - length (br_buf b)) (br_r b) in
  MkBr (br_buf b ++ d) (match e with Some _ => e | None => br_err b end) r'.
(** Buffered *)
Definition br_buffered (b : bufr) : nat := length (br_buf b).
(** Read(p) with len(p) = n *)
Definition br_read (n : nat) (b : bufr) : bytes * option err * bufr :=
  match n, br_buf b with
  | O, [] => ([], br_err b, MkBr [] None (br_r b))
  | O, _ => ([], None, b)
  | S _, [] =>
    match br_err b with
    | Some e => ([], Some e, MkBr [] None (br_r b))
    | None =>
      if (buf_size <=? n)%nat then
        let '(d, e, r') := tread n (br_r b) in (d, e, MkBr [] None r')
      else
        let b1 := br_fill b in
        match br_buf b1 with
        | [] => ([], br_err b1, MkBr [] None (br_r b1))
        | _ => (firstn n (br_buf b1), None, MkBr (skipn n (br_buf b1)) (br_err b1) (br_r b1))
        end
    end
  | S _, _ => (firstn n (br_buf b), None, MkBr (skipn n (br_buf b)) (br_err b) (br_r b))
  end.

(** ** Lemmas about the Writer *)
Definition bw_ok (b : bufw) : Prop := (length (bw_buf b) <= buf_size)%nat.
(** Everything that was taken: passed on or buffered. *)
Definition bw_all (b : bufw) : bytes := w_out (bw_w b) ++ bw_buf b.

Lemma buf_size_pos : exists k, buf_size = S k.
Proof. unfold buf_size. exists (Z.to_nat 4095). rewrite <- Z2Nat.inj_succ by lia. reflexivity. Qed.

Lemma twrite_parts : forall p w n e w', twrite p w = (n, e, w') ->
  exists k, n = Z.of_nat (length (firstn k p)) /\ w_out w' = w_out w ++ firstn k p /\
    (e = None -> firstn k p = p).
Proof.
  intros p w n e w' H. unfold twrite in H. destruct (w_sched w) as [|[|k x] s]; injection H as <- <- <-.
  - exists (length p). rewrite firstn_all. auto.
  - exists (length p). rewrite firstn_all. auto.
  - exists k. repeat split. discriminate.
Qed.

Lemma firstn_skipn_len : forall k (p : bytes), firstn k p ++ skipn (length (firstn k p)) p = p.
Proof. induction k; intros [|x p]; cbn; try reflexivity. now rewrite IHk. Qed.

Lemma bw_flush_spec : forall b e b', bw_flush b = (e, b') ->
  bw_all b' = bw_all b /\ bw_err b' = e /\ (bw_ok b -> bw_ok b') /\
  (e = None -> bw_buf b' = []) /\
  (exists s, w_out (bw_w b') = w_out (bw_w b) ++ s).
Proof.
  intros b e b' H. unfold bw_flush in H. destruct (bw_err b) as [x|] eqn:E.
  - injection H as <- <-. repeat split; auto; [discriminate|]. exists []. now rewrite app_nil_r.
  - destruct (bw_buf b) as [|c l] eqn:B.
    + injection H as <- <-. repeat split; auto. exists []. now rewrite app_nil_r.
    + rewrite <- B in H. destruct (twrite (bw_buf b) (bw_w b)) as [[n x] w'] eqn:T.
      destruct (twrite_parts _ _ _ _ _ T) as (k & -> & W & F).
      destruct x as [x|]; injection H as <- <-; unfold bw_all, bw_ok; cbn [bw_w bw_buf bw_err].
      * rewrite Nat2Z.id, W, <- app_assoc, firstn_skipn_len.
        repeat split; auto; [rewrite skipn_length; lia|discriminate|eexists; reflexivity].
      * rewrite W, (F eq_refl), app_nil_r. repeat split; auto; [cbn; lia|eexists; reflexivity].
Qed.

Lemma bw_loop_spec : forall fuel nn p b nn' rest b', bw_ok b ->
  bw_write_loop fuel nn p b = (nn', rest, b') ->
  bw_ok b' /\ bw_all b' ++ rest = bw_all b ++ p /\ (nn' + length rest = nn + length p)%nat /\
  (bw_err b <> None -> bw_err b' <> None) /\
  (exists s, w_out (bw_w b') = w_out (bw_w b) ++ s).
Proof.
  induction fuel as [|f IH]; intros nn p b nn' rest b' K H; cbn [bw_write_loop] in H.
  - injection H as <- <- <-. repeat split; auto. exists []. now rewrite app_nil_r.
  - destruct ((buf_size - length (bw_buf b) <? length p)%nat && _) eqn:C.
    2:{ injection H as <- <- <-. repeat split; auto. exists []. now rewrite app_nil_r. }
    apply andb_true_iff in C. destruct C as [C E].
    destruct (bw_err b) eqn:Eb; [discriminate|].
    destruct (bw_buf b) as [|c l] eqn:B.
    + destruct (twrite p (bw_w b)) as [[n x] w'] eqn:T.
      destruct (twrite_parts _ _ _ _ _ T) as (k & -> & W & F). rewrite Nat2Z.id in H.
      assert (K1 : bw_ok (MkBw [] x w')) by (unfold bw_ok; cbn; lia).
      destruct (IH _ _ _ _ _ _ K1 H) as (K' & A & N & _ & s & S).
      split; [assumption|]. split; [|split; [|split]].
      * rewrite A. unfold bw_all. cbn [bw_w bw_buf]. rewrite B, W, !app_nil_r, <- app_assoc.
        now rewrite firstn_skipn_len.
      * rewrite N, skipn_length. assert (length (firstn k p) <= length p)%nat by (rewrite firstn_length; lia). lia.
      * congruence.
      * cbn [bw_w] in S. rewrite S, W, <- app_assoc. eexists; reflexivity.
    + rewrite <- B in *. set (k := (buf_size - length (bw_buf b))%nat) in *.
      destruct (bw_flush (MkBw (bw_buf b ++ firstn k p) None (bw_w b))) as [e1 b1] eqn:Fl.
      destruct (bw_flush_spec _ _ _ Fl) as (A1 & E1 & K1 & _ & s1 & S1).
      assert (K2 : bw_ok b1).
      { apply K1. unfold bw_ok. cbn [bw_buf]. rewrite app_length, firstn_length. unfold bw_ok in K. lia. }
      destruct (IH _ _ _ _ _ _ K2 H) as (K' & A & N & _ & s & S).
      split; [assumption|]. split; [|split; [|split]].
      * rewrite A, A1. unfold bw_all. cbn [bw_w bw_buf]. rewrite <- !app_assoc. now rewrite firstn_skipn.
      * rewrite N, skipn_length. lia.
      * congruence.
      * rewrite S, S1. cbn [bw_w]. rewrite <- app_assoc. eexists; reflexivity.
Qed.
(** Three rounds: the loop ends by its own condition. *)
Lemma bw_loop_done : forall nn p b nn' rest b', bw_ok b -> bw_write_loop 3 nn p b = (nn', rest, b') ->
  bw_err b' <> None \/ (length rest <= buf_size - length (bw_buf b'))%nat.
Proof.
  assert (G0 : forall f nn p b nn' rest b', bw_buf b = [] -> bw_err b = None ->
    bw_write_loop (S (S f)) nn p b = (nn', rest, b') ->
    bw_err b' <> None \/ (length rest <= buf_size - length (bw_buf b'))%nat).
  { intros f nn p b nn' rest b' B E H. cbn [bw_write_loop] in H. rewrite E, B in H.
    rewrite andb_true_r in H. destruct (_ <? _)%nat eqn:C.
    - destruct (twrite p (bw_w b)) as [[n x] w'] eqn:T.
      destruct (twrite_parts _ _ _ _ _ T) as (k & -> & W & F). rewrite Nat2Z.id in H.
      cbn [bw_err bw_buf] in H. destruct x as [x|].
      + rewrite andb_false_r in H. injection H as <- <- <-. left. discriminate.
      + rewrite (F eq_refl), skipn_all in H. cbn [length] in H.
        replace (buf_size - 0 <? 0)%nat with false in H by lia. cbn [andb] in H.
        injection H as <- <- <-. right. cbn. lia.
    - injection H as <- <- <-. right. rewrite B. cbn [length] in *. lia. }
  intros nn p b nn' rest b' K H. destruct (bw_err b) as [x|] eqn:E.
  - cbn [bw_write_loop] in H. rewrite E, andb_false_r in H. injection H as <- <- <-. left. congruence.
  - destruct (bw_buf b) as [|c l] eqn:B; [eapply (G0 1%nat); eauto|].
    change (bw_write_loop 3 nn p b) with
      (if (buf_size - length (bw_buf b) <? length p)%nat && match bw_err b with None => true | _ => false end
       then match bw_buf b with
            | [] => let '(n, e, w') := twrite p (bw_w b) in
                    bw_write_loop 2 (nn + Z.to_nat n) (skipn (Z.to_nat n) p) (MkBw [] e w')
            | _ => let k := (buf_size - length (bw_buf b))%nat in
                   let '(_, b1) := bw_flush (MkBw (bw_buf b ++ firstn k p) None (bw_w b)) in
                   bw_write_loop 2 (nn + k) (skipn k p) b1
            end
       else (nn, p, b)) in H.
    destruct (_ && _) eqn:C; [|injection H as <- <- <-; right; rewrite E, andb_true_r in C; lia].
    rewrite B in H. rewrite <- B in H. cbv zeta in H.
    set (k := (buf_size - length (bw_buf b))%nat) in *.
    destruct (bw_flush (MkBw (bw_buf b ++ firstn k p) None (bw_w b))) as [e1 b1] eqn:Fl.
    destruct (bw_flush_spec _ _ _ Fl) as (_ & E1 & _ & F1 & _).
    destruct e1 as [e1|].
    + cbn [bw_write_loop] in H. rewrite E1, andb_false_r in H. injection H as <- <- <-. left. congruence.
    + eapply (G0 0%nat); eauto.
Qed.
(** Write takes everything or reports an error; nothing is lost, duplicated or reordered. *)
Lemma bw_write_spec : forall p b n e b', bw_ok b -> bw_write p b = (n, e, b') ->
  bw_ok b' /\ bw_err b' = e /\ (bw_err b <> None -> e <> None) /\
  (exists s, w_out (bw_w b') = w_out (bw_w b) ++ s) /\
  (exists rest, bw_all b' ++ rest = bw_all b ++ p /\ Z.of_nat (length p) = n + Z.of_nat (length rest) /\
     (e = None -> rest = [])).
Proof.
  intros p b n e b' K H. unfold bw_write in H.
  destruct (bw_write_loop 3 0 p b) as [[nn rest] b1] eqn:L.
  destruct (bw_loop_spec _ _ _ _ _ _ _ K L) as (K1 & A & N & E & s & S).
  destruct (bw_loop_done _ _ _ _ _ _ K L) as [D|D].
  - destruct (bw_err b1) as [x|] eqn:X; [|congruence]. injection H as <- <- <-.
    repeat split; auto; [eauto|]. exists rest. repeat split; auto; [lia|discriminate].
  - destruct (bw_err b1) as [x|] eqn:X; injection H as <- <- <-.
    + repeat split; auto; [eauto|]. exists rest. repeat split; auto; [lia|discriminate].
    + unfold bw_ok in *. cbn [bw_w bw_buf bw_err] in *. repeat split; auto.
      * rewrite app_length. lia.
      * eauto.
      * exists []. unfold bw_all in *. cbn [bw_w bw_buf]. rewrite app_nil_r, app_assoc, A.
        cbn [length]. repeat split; auto. lia.
Qed.
