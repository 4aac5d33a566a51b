(** Reading a known text through the bufio.Reader of BufRead.v. *)
From Coq Require Import ZArith List Bool Lia.
From Coq Require Import ZifyBool ZifyNat.
From Verif Require Import Base Transport TransportProofs BufIO BufRead JsonText.
Import ListNotations.
Open Scope Z_scope.

(** A position between two characters where the JSON readers depend on what is buffered: before a
    comma or colon, behind an opening brace, within NaN" and Infinity". *)
Definition word_pairs : list (Z * Z) :=
  [(78, 97); (97, 78); (78, 34); (73, 110); (110, 102); (102, 105); (105, 110); (110, 105);
   (105, 116); (116, 121); (121, 34)].
Definition tight (p n : Z) : bool :=
  (n =? 44) || (n =? 58) || (p =? 123) || existsb (fun '(x, y) => (p =? x) && (n =? y)) word_pairs.
(** Where the data buffered and the chunks to come end. *)
Fixpoint ends (n : nat) (r : rt) : list nat :=
  n :: match r with [] => [] | (c, _) :: r' => ends (n + length c) r' end.

(** How a text is read.  [Short] and [Chunks]: no chunk ends at a tight position, and the buffer
    never has to cut a chunk at one, since the text is at most 4096 bytes long, or since no chunk is
    longer than [k] bytes and no token [w] comes within [k] bytes of 4096.  [Strict]: as [Short], and
    the positions behind a comma are tight as well.  [Loose]: chunks may end anywhere. *)
Inductive mode : Type := Short | Chunks (k : nat) | Strict | Loose.
Definition behind (k : mode) (p : Z) : bool := match k with Strict => p =? 44 | _ => false end.
(** The position before the [i]th character of [s], [prev] being the character before [s]. *)
Definition tpos (k : mode) (prev : Z) (s : bytes) (i : nat) : bool :=
  match nth_error s i with
  | None => false
  | Some n => let p := nth i (prev :: s) 0 in tight p n || behind k p
  end.
Definition room (k : mode) (r : rt) (s : bytes) : Prop :=
  match k with
  | Short | Strict => (length s <= 4096)%nat
  | Chunks k => (k <= 4000)%nat /\ Forall (fun ev => (length (fst ev) <= k)%nat) r
  | Loose => True
  end.
Definition fits (k : mode) (w : bytes) : Prop :=
  match k with Chunks k => (length w + k < 4096)%nat | _ => True end.

Record view (k : mode) (b : breader) (prev : Z) (s rest : bytes) : Prop := MkView {
  v_err : b_err b = None;
  v_ben : benign (b_rt b);
  v_con : b_un b ++ content (b_rt b) = s ++ rest;
  v_safe : k <> Loose -> Forall (fun i => tpos k prev s i = false) (ends (length (b_un b)) (b_rt b));
  v_room : room k (b_rt b) s
}.

Lemma buf_size_4096 : buf_size = 4096%nat.
Proof. reflexivity. Qed.

Lemma tpos_ge : forall k prev s i, (length s <= i)%nat -> tpos k prev s i = false.
Proof. intros k prev s i L. unfold tpos. now rewrite (proj2 (nth_error_None s i) L). Qed.

Lemma tpos_app : forall k a prev s i,
  tpos k prev (a ++ s) (length a + i) = tpos k (last a prev) s i.
Proof.
  intros k a prev s i. unfold tpos. rewrite nth_error_app2 by lia.
  replace (length a + i - length a)%nat with i by lia.
  destruct (nth_error s i); [|reflexivity]. cbv zeta.
  assert (E : nth (length a + i) (prev :: a ++ s) 0 = nth i (last a prev :: s) 0); [|now rewrite E].
  revert prev. induction a as [|x a IH]; intros prev; [reflexivity|].
  cbn [length app]. change (S (length a) + i)%nat with (S (length a + i)).
  cbn [nth]. specialize (IH x).
  transitivity (nth i (last a x :: s) 0); [exact IH|].
  destruct a as [|y a]; [reflexivity|].
  replace (last (x :: y :: a) prev) with (last (y :: a) x); [reflexivity|].
  clear. revert x y prev. induction a as [|z a IH]; intros x y prev; [reflexivity|].
  change (last (y :: z :: a) x) with (last (z :: a) x).
  change (last (x :: y :: z :: a) prev) with (last (y :: z :: a) prev).
  rewrite <- (IH y z prev). clear. revert x y z. induction a as [|w a IH]; intros; [reflexivity|].
  cbn [last] in *. destruct a; [reflexivity|]. apply (IH x y w).
Qed.

Lemma content_nil : forall r, benign r -> content r = [] -> r = [].
Proof.
  intros [|[c e] r] B E; [reflexivity|]. inversion B as [|? ? [H _]]; subst.
  unfold content in E. cbn in E, H. apply app_eq_nil in E. now destruct E.
Qed.
Lemma content_cons : forall c e r, content ((c, e) :: r) = c ++ content r.
Proof. reflexivity. Qed.

(** ** fill *)
Lemma fill_eof : forall b, b_rt b = [] ->
  b_un (b_fill b) = b_un b /\ b_err (b_fill b) = Some EEof /\ b_rt (b_fill b) = [].
Proof.
  intros b H. unfold b_fill. rewrite H. cbn [tread b_un b_err b_rt]. now rewrite app_nil_r.
Qed.

Lemma fill_view : forall k b prev s rest, view k b prev s rest -> b_rt b <> [] ->
  (length (b_un b) < 4096)%nat -> fits k (b_un b) ->
  view k (b_fill b) prev s rest /\
  exists d, d <> [] /\ b_un (b_fill b) = b_un b ++ d /\ content (b_rt b) = d ++ content (b_rt (b_fill b)) /\
  ((length (b_rt (b_fill b)) < length (b_rt b))%nat \/
   (length (b_rt (b_fill b)) = length (b_rt b) /\ length (b_un (b_fill b)) = 4096%nat)).
Proof.
  intros k b prev s rest V N L Fi.
  destruct (b_rt b) as [|[c e] r] eqn:Rt; [congruence|].
  pose proof (v_ben _ _ _ _ _ V) as B. rewrite Rt in B.
  inversion B as [|? ? [Hc He] Br]; subst. cbn [fst snd] in Hc, He. subst e.
  pose proof (v_con _ _ _ _ _ V) as C. rewrite Rt, content_cons in C.
  pose proof (v_safe _ _ _ _ _ V) as Sf. rewrite Rt in Sf. cbn [ends] in Sf.
  pose proof (v_room _ _ _ _ _ V) as Ro. rewrite Rt in Ro.
  pose proof (v_err _ _ _ _ _ V) as Er.
  unfold b_fill. rewrite Rt. cbn [tread]. rewrite buf_size_4096.
  destruct (Nat.ltb_spec (4096 - length (b_un b)) (length c)) as [Cut|Cut].
  - assert (Kn : (k = Short \/ k = Strict) \/ k = Loose).
    { destruct k as [|k| |]; [now left; left| |now left; right|now right]. unfold fits in Fi. destruct Ro as [_ Ro].
      inversion Ro; subst. cbn [fst] in *. lia. }
    cbn [b_un b_err b_rt].
    assert (Ln : length (b_un b ++ firstn (4096 - length (b_un b)) c) = 4096%nat)
      by (rewrite app_length, firstn_length; lia).
    split.
    + constructor; cbn [b_un b_err b_rt].
      * assumption.
      * constructor; [|assumption]. cbn [fst snd]. split; [|reflexivity].
        intros X. apply (f_equal (@length Z)) in X. rewrite skipn_length in X. cbn [length] in X. lia.
      * rewrite content_cons, <- C, <- !app_assoc. f_equal. rewrite app_assoc, firstn_skipn. reflexivity.
      * intros Nl. destruct Kn as [Kn|Kn]; [|congruence]. assert (Rs : (length s <= 4096)%nat) by (destruct Kn as [->| ->]; exact Ro). specialize (Sf Nl).
        inversion Sf as [|? ? S0 S1]; subst. cbn [room] in Ro.
        rewrite Ln. cbn [ends]. constructor; [apply tpos_ge; lia|].
        rewrite skipn_length. replace (4096 + (length c - (4096 - length (b_un b))))%nat
          with (length (b_un b) + length c)%nat by lia. assumption.
      * destruct Kn as [[->| ->]| ->]; [exact Ro|exact Ro|exact I].
    + exists (firstn (4096 - length (b_un b)) c). repeat split.
      * intros X. apply (f_equal (@length Z)) in X. rewrite firstn_length in X. cbn [length] in X. lia.
      * rewrite !content_cons, app_assoc, firstn_skipn. reflexivity.
      * right. split; [reflexivity|assumption].
  - cbn [b_un b_err b_rt]. split.
    + constructor; cbn [b_un b_err b_rt]; [assumption..| | |].
      * now rewrite <- C, <- app_assoc.
      * intros Nl. specialize (Sf Nl). inversion Sf; subst. now rewrite app_length.
      * destruct k as [|k| |]; [exact Ro| |exact Ro|exact I]. destruct Ro as [Ro1 Ro2]. split; [exact Ro1|].
        now inversion Ro2.
    + exists c. repeat split; [assumption|]. left. cbn [length]. lia.
Qed.

(** ** Peek *)
Definition settled (b : breader) (n : nat) : Prop :=
  (b_err b = None /\ (n <= length (b_un b))%nat) \/
  (b_err b = Some EEof /\ b_rt b = [] /\ (length (b_un b) < n)%nat).
(** A state that is a view but for a pending end of file. *)
Definition quasi (k : mode) (b : breader) (prev : Z) (s rest : bytes) : Prop :=
  view k (snd (b_read_err b)) prev s rest /\ (b_err b = None \/ b_err b = Some EEof /\ b_rt b = []).

Lemma view_quasi : forall k b prev s rest, view k b prev s rest -> quasi k b prev s rest.
Proof.
  intros k b prev s rest V. split; [|left; apply (v_err _ _ _ _ _ V)].
  destruct V as [E B C Sf Ro]. destruct b; cbn in *. constructor; cbn; auto.
Qed.
Lemma quasi_view : forall k b prev s rest, quasi k b prev s rest -> b_err b = None -> view k b prev s rest.
Proof.
  intros k [be un af er r] prev s rest [V _] E. cbn in E; subst er. exact V.
Qed.

Lemma fits_small : forall k b prev s rest u, view k b prev s rest -> (length u < 5)%nat -> fits k u.
Proof.
  intros [|k| |] b prev s rest u V L; [exact I| |exact I..]. unfold fits.
  destruct (v_room _ _ _ _ _ V) as [Ro _]. lia.
Qed.

Lemma peek_loop : forall fuel n k b prev s rest, view k b prev s rest -> (n <= 5)%nat ->
  (length (b_rt b) + 2 <= fuel)%nat ->
  let b1 := b_peek_loop fuel n b in quasi k b1 prev s rest /\ settled b1 n.
Proof.
  induction fuel as [|f IH]; intros n k b prev s rest V Hn L; [lia|]. cbn [b_peek_loop].
  destruct (Nat.ltb_spec (length (b_un b)) n) as [Lt|Ge].
  - rewrite (v_err _ _ _ _ _ V).
    destruct (b_rt b) as [|ev r] eqn:Rt.
    + destruct (fill_eof b Rt) as (U & E & R).
      destruct f as [|f]; [cbn [length] in L; lia|]. cbn [b_peek_loop].
      rewrite U, E. replace (length (b_un b) <? n)%nat with true by (symmetry; apply Nat.ltb_lt; lia).
      split; [|right; rewrite U, E, R; auto].
      split; [|right; auto]. destruct V as [Er B C Sf Ro]. rewrite Rt in *.
      constructor; unfold b_read_err; cbn [snd b_un b_err b_rt]; rewrite ?U, ?R; auto.
    + destruct (fill_view k b prev s rest V) as [V1 (d & Dn & U & _ & M)];
        [congruence|lia|eapply fits_small; [eassumption|lia]|].
      destruct M as [M|[_ M]].
      * apply IH; [assumption|assumption|]. rewrite Rt in M. cbn [length] in *. lia.
      * destruct f as [|f]; [cbn [length] in L; lia|]. cbn [b_peek_loop].
        replace (length (b_un (b_fill b)) <? n)%nat with false by (symmetry; apply Nat.ltb_ge; lia).
        split; [now apply view_quasi|left; split; [apply (v_err _ _ _ _ _ V1)|lia]].
  - split; [now apply view_quasi|left; split; [apply (v_err _ _ _ _ _ V)|assumption]].
Qed.

Lemma firstn_pre : forall A n (u c : list A), (n <= length u)%nat -> firstn n u = firstn n (u ++ c).
Proof.
  intros A n u c L. rewrite firstn_app. replace (n - length u)%nat with O by lia. cbn. now rewrite app_nil_r.
Qed.

Lemma peek_view : forall n k b prev s rest, view k b prev s rest -> (n <= 5)%nat ->
  exists b', b_peek n b = (firstn n (s ++ rest), (n <=? length (s ++ rest))%nat, b') /\
             view k b' prev s rest /\ (Nat.min n (length (s ++ rest)) <= length (b_un b'))%nat.
Proof.
  intros n k b prev s rest V Hn. unfold b_peek.
  destruct (peek_loop (S (S (length (b_rt b)))) n k b prev s rest V Hn) as [Q St]; [lia|].
  set (b1 := b_peek_loop _ _ _) in *. clearbody b1. destruct Q as [Q _].
  pose proof (v_con _ _ _ _ _ Q) as C. cbn [b_read_err snd b_un b_rt] in C.
  destruct St as [[E L]|[E [R L]]].
  - replace (length (b_un b1) <? n)%nat with false by (symmetry; apply Nat.ltb_ge; lia).
    exists b1. split.
    + f_equal. f_equal; [rewrite <- C; now apply firstn_pre|].
      symmetry; apply Nat.leb_le. rewrite <- C, app_length. lia.
    + split; [|lia]. apply quasi_view; [split; [assumption|left; assumption]|assumption].
  - replace (length (b_un b1) <? n)%nat with true by (symmetry; apply Nat.ltb_lt; lia).
    rewrite R in C. unfold content in C. cbn in C. rewrite app_nil_r in C.
    exists (snd (b_read_err b1)). split.
    + f_equal. f_equal; [rewrite <- C; symmetry; apply firstn_all2; lia|].
      symmetry; apply Nat.leb_gt. rewrite <- C. lia.
    + split; [assumption|]. cbn [b_read_err snd b_un]. rewrite <- C. lia.
Qed.

(** ** Taking bytes *)
Lemma advance_view : forall k b prev a s rest, view k b prev (a ++ s) rest -> (length a <= length (b_un b))%nat ->
  view k (b_advance (length a) b) (last a prev) s rest.
Proof.
  intros k b prev a s rest [E B C Sf Ro] L. constructor; cbn [b_advance b_un b_err b_rt]; auto.
  - rewrite <- app_assoc in C.
    assert (Sk : skipn (length a) (b_un b ++ content (b_rt b)) = s ++ rest).
    { rewrite C, skipn_app, skipn_all, Nat.sub_diag. reflexivity. }
    rewrite skipn_app in Sk. replace (length a - length (b_un b))%nat with O in Sk by lia. exact Sk.
  - intros Nl. specialize (Sf Nl). rewrite skipn_length.
    assert (G : forall r n, (length a <= n)%nat -> Forall (fun i => tpos k prev (a ++ s) i = false) (ends n r) ->
                Forall (fun i => tpos k (last a prev) s i = false) (ends (n - length a) r)).
    { induction r as [|[c e] r IH]; intros n Ln F; cbn [ends] in *; inversion F as [|? ? F0 F1]; subst; constructor.
      - rewrite <- tpos_app. replace (length a + (n - length a))%nat with n by lia. assumption.
      - constructor.
      - rewrite <- tpos_app. replace (length a + (n - length a))%nat with n by lia. assumption.
      - replace (n - length a + length c)%nat with (n + length c - length a)%nat by lia. apply IH; [lia|assumption]. }
    apply G; [lia|assumption].
  - unfold room in *. destruct k; [rewrite app_length in Ro; lia|exact Ro|rewrite app_length in Ro; lia|exact I].
Qed.

Lemma byte_loop : forall fuel k b prev s rest, view k b prev s rest -> (length (b_rt b) + 2 <= fuel)%nat ->
  let b1 := b_byte_loop fuel b in quasi k b1 prev s rest /\ settled b1 1.
Proof.
  induction fuel as [|f IH]; intros k b prev s rest V L; [lia|]. cbn [b_byte_loop].
  destruct (b_un b) as [|x u] eqn:Un.
  - rewrite (v_err _ _ _ _ _ V).
    destruct (b_rt b) as [|ev r] eqn:Rt.
    + destruct (fill_eof b Rt) as (U & E & R).
      destruct f as [|f]; [cbn [length] in L; lia|]. cbn [b_byte_loop].
      rewrite U, E, Un. split; [|right; rewrite U, E, R, Un; cbn; auto].
      split; [|right; auto]. destruct V as [Er B C Sf Ro]. rewrite Rt in *.
      constructor; unfold b_read_err; cbn [snd b_un b_err b_rt]; rewrite ?U, ?R; auto.
    + destruct (fill_view k b prev s rest V) as [V1 (d & Dn & U & _ & M)];
        [congruence|rewrite Un; cbn; lia|eapply fits_small; [eassumption|rewrite Un; cbn; lia]|].
      destruct M as [M|[_ M]].
      * apply IH; [assumption|]. rewrite Rt in M. cbn [length] in *. lia.
      * destruct f as [|f]; [cbn [length] in L; lia|]. cbn [b_byte_loop].
        destruct (b_un (b_fill b)) as [|y v] eqn:U2; [discriminate|].
        split; [now apply view_quasi|left; rewrite U2; cbn; split; [apply (v_err _ _ _ _ _ V1)|lia]].
  - split; [now apply view_quasi|left; rewrite Un; cbn; split; [apply (v_err _ _ _ _ _ V)|lia]].
Qed.

Lemma byte_view : forall k b prev c s rest, view k b prev (c :: s) rest ->
  exists b', b_byte b = (inl c, b') /\ view k b' c s rest.
Proof.
  intros k b prev c s rest V. unfold b_byte.
  destruct (byte_loop (S (S (length (b_rt b)))) k b prev _ rest V) as [Q St]; [lia|].
  set (b1 := b_byte_loop _ _) in *. clearbody b1.
  pose proof (v_con _ _ _ _ _ (proj1 Q)) as C. cbn [b_read_err snd b_un b_rt] in C.
  destruct St as [[E L]|[E [R L]]].
  - apply quasi_view in Q; [|assumption]. destruct (b_un b1) as [|x u] eqn:Un; [cbn in L; lia|].
    cbn in C. inversion C; subst x. eexists; split; [reflexivity|].
    apply (advance_view k b1 prev [c] s rest Q). rewrite Un. cbn. lia.
  - destruct (b_un b1) as [|x u] eqn:Un; [|cbn in L; lia]. rewrite R in C. discriminate.
Qed.
Lemma byte_eof : forall k b prev, view k b prev [] [] ->
  exists b', b_byte b = (inr EEof, b') /\ view k b' prev [] [].
Proof.
  intros k b prev V. unfold b_byte.
  destruct (byte_loop (S (S (length (b_rt b)))) k b prev _ _ V) as [Q St]; [lia|].
  set (b1 := b_byte_loop _ _) in *. clearbody b1.
  pose proof (v_con _ _ _ _ _ (proj1 Q)) as C. cbn [b_read_err snd b_un b_rt] in C.
  apply app_eq_nil in C. destruct C as [C1 C2].
  destruct St as [[E L]|[E [R L]]]; [rewrite C1 in L; cbn in L; lia|].
  rewrite C1. destruct (b_read_err b1) as [e b2] eqn:RE. unfold b_read_err in RE. inversion RE; subst.
  rewrite E. eexists; split; [reflexivity|]. apply Q.
Qed.
(** ReadByte and UnreadByte *)
Lemma byte_unread : forall k b prev c s rest t, view k b prev s rest -> s ++ rest = c :: t ->
  exists b', b_byte b = (inl c, b') /\ view k (b_unread c b') prev s rest.
Proof.
  intros k b prev c s rest t V St0. unfold b_byte.
  destruct (byte_loop (S (S (length (b_rt b)))) k b prev _ rest V) as [Q St]; [lia|].
  set (b1 := b_byte_loop _ _) in *. clearbody b1.
  pose proof (v_con _ _ _ _ _ (proj1 Q)) as C. cbn [b_read_err snd b_un b_rt] in C.
  rewrite St0 in C.
  destruct St as [[E L]|[E [R L]]].
  - apply quasi_view in Q; [|assumption]. destruct (b_un b1) as [|x u] eqn:Un; [cbn in L; lia|].
    cbn in C. inversion C; subst x. eexists; split; [reflexivity|].
    destruct Q as [E' B' C' Sf' Ro']. rewrite Un in *.
    unfold b_unread. cbn [b_advance b_un b_before b_after b_err b_rt]. rewrite Un. cbn [skipn].
    destruct u as [|y u]; constructor; cbn [b_un b_err b_rt]; auto.
  - destruct (b_un b1) as [|x u] eqn:Un; [|cbn in L; lia]. rewrite R in C. discriminate.
Qed.

(** Read into a buffer smaller than what is buffered *)
Lemma read_view : forall k b prev a s rest, view k b prev (a ++ s) rest -> a <> [] ->
  (length a <= length (b_un b))%nat ->
  exists b', b_read (length a) b = (a, None, b') /\ view k b' (last a prev) s rest.
Proof.
  intros k b prev a s rest V N L. unfold b_read.
  destruct (b_un b) as [|x u] eqn:Un; [destruct a; [congruence|cbn in L; lia]|].
  exists (b_advance (length a) b); split; [|apply advance_view; [assumption|now rewrite Un]].
  f_equal. f_equal. pose proof (v_con _ _ _ _ _ V) as C. rewrite Un in C.
  rewrite (firstn_pre _ _ (x :: u) (content (b_rt b))) by assumption. rewrite C, <- app_assoc, firstn_app, firstn_all, Nat.sub_diag.
  cbn. now rewrite app_nil_r.
Qed.

(** ** ReadBytes *)
Lemma upto_none : forall d u, ~ In d u -> upto d u = None.
Proof.
  intros d u. induction u as [|x u IH]; intros N; [reflexivity|]. cbn [upto].
  destruct (Z.eqb_spec x d); [subst; exfalso; apply N; now left|].
  rewrite IH; [reflexivity|]. intros H; apply N; now right.
Qed.
Lemma upto_some : forall d w t, ~ In d w -> upto d (w ++ d :: t) = Some (w ++ [d]).
Proof.
  intros d w t. induction w as [|x w IH]; intros N; cbn [upto app].
  - now rewrite Z.eqb_refl.
  - destruct (Z.eqb_spec x d); [subst; exfalso; apply N; now left|].
    rewrite IH; [reflexivity|]. intros H; apply N; now right.
Qed.
Lemma prefix_cases : forall (u c w : bytes) d t, u ++ c = w ++ d :: t ->
  (exists u', u = w ++ d :: u' /\ u' ++ c = t) \/ (exists w', w = u ++ w' /\ c = w' ++ d :: t).
Proof.
  induction u as [|x u IH]; intros c w d t E.
  - right. now exists w.
  - destruct w as [|y w]; cbn [app] in E; injection E as Ex E'; subst x.
    + left. exists u. auto.
    + destruct (IH _ _ _ _ E') as [(u' & -> & H1)|(w' & -> & H1)].
      * left. now exists u'.
      * right. now exists w'.
Qed.

Definition brim (b : breader) : nat := if (4096 <=? length (b_un b))%nat then 1 else 0.
Lemma until_loop : forall fuel acc k b prev w d s rest, view k b prev (w ++ d :: s) rest -> ~ In d w -> fits k w ->
  (2 * (length (b_rt b) + length (content (b_rt b))) + brim b < fuel)%nat ->
  exists b', b_until_loop fuel d acc b = (acc ++ w ++ [d], None, b') /\ view k b' d s rest.
Proof.
  induction fuel as [|f IH]; intros acc k b prev w d s rest V N Fi L; [lia|]. cbn [b_until_loop].
  pose proof (v_con _ _ _ _ _ V) as C. rewrite <- app_assoc in C. cbn [app] in C.
  destruct (prefix_cases _ _ _ _ _ C) as [(u' & U & _)|(w' & W & C')].
  - rewrite U, upto_some by assumption. eexists. split; [reflexivity|].
    rewrite (app_assoc w [d] s : w ++ d :: s = (w ++ [d]) ++ s) in V.
    apply (advance_view k b prev (w ++ [d]) s rest) in V.
    + now rewrite last_last in V.
    + rewrite U, !app_length. cbn. lia.
  - assert (Nu : ~ In d (b_un b)) by (intros H; apply N; rewrite W; apply in_or_app; now left).
    rewrite (upto_none _ _ Nu), (v_err _ _ _ _ _ V), buf_size_4096.
    unfold brim in L.
    destruct (Nat.leb_spec 4096 (length (b_un b))) as [Full|Full].
    + rewrite W, <- app_assoc in V.
      pose proof (advance_view k b prev (b_un b) (w' ++ d :: s) rest V ltac:(lia)) as V1.
      assert (Fi' : fits k w').
      { destruct k as [|k| |]; try exact I. unfold fits in *. rewrite W, app_length in Fi. lia. }
      destruct (IH (acc ++ b_un b) k _ _ w' d s rest V1) as (b' & E & V'); [|assumption| |].
      { intros H; apply N; rewrite W; apply in_or_app; now right. }
      { unfold brim. cbn [b_advance b_un b_rt]. rewrite skipn_all. cbn [length Nat.leb]. lia. }
      exists b'. split; [|assumption]. rewrite E, W, <- !app_assoc. reflexivity.
    + destruct (b_rt b) as [|ev r] eqn:Rt.
      { unfold content in C'. cbn in C'. destruct w'; discriminate. }
      destruct (fill_view k b prev _ rest V) as [V1 (x & Dn & U & Cx & M)]; [congruence|assumption| |].
      { destruct k as [|k| |]; try exact I. unfold fits in *. rewrite W, app_length in Fi. lia. }
      apply (IH acc k _ prev); auto.
      apply (f_equal (@length Z)) in Cx. rewrite app_length in Cx.
      assert (1 <= length x)%nat by (destruct x; [congruence|cbn [length]; lia]).
      rewrite Rt in *. unfold brim. destruct (4096 <=? length (b_un (b_fill b)))%nat; lia.
Qed.

Lemma until_view : forall k b prev w d s rest, view k b prev (w ++ d :: s) rest -> ~ In d w -> fits k w ->
  exists b', b_until d b = (w ++ [d], None, b') /\ view k b' d s rest.
Proof.
  intros k b prev w d s rest V N Fi. unfold b_until.
  apply (until_loop (b_fuel b) [] k b prev); auto. unfold b_fuel, brim.
  change (content (b_rt b)) with (concat (map fst (b_rt b))).
  destruct (4096 <=? length (b_un b))%nat; lia.
Qed.
