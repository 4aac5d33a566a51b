(** Reasoning rules: what it means for an operation to decode / encode a byte string. *)
From Coq Require Import ZArith List Bool Lia.
From Verif Require Import Base Errors Transport Proto Arith TransportProofs Values.
Import ListNotations.
Open Scope Z_scope.

(** Splitting a proper prefix of a concatenation. *)
Lemma prefix_app_split : forall (p q a b : bytes),
  p ++ q = a ++ b -> q <> [] ->
  (exists q', p ++ q' = a /\ q' <> []) \/ (exists x, p = a ++ x /\ x ++ q = b).
Proof.
  induction p as [|h p IH]; intros q a b H Q.
  - destruct a as [|z a].
    + right. exists []. auto.
    + left. exists (z :: a). split; [reflexivity|discriminate].
  - destruct a as [|z a].
    + right. exists (h :: p). auto.
    + cbn in H. injection H; intros H1 ->. destruct (IH q a b H1 Q) as [(q' & E & N)|(x & E & N)].
      * left. exists q'. cbn. rewrite E. auto.
      * right. exists x. cbn. rewrite E. auto.
Qed.

Section Rules.
Context {S C : Type}.
Variable view : S -> rt.
Variable st : S -> C.

(** In protocol state [c], [op] decodes exactly the bytes [bs] to [a], leaving state [c'],
    whatever follows and however the transport is chunked. *)
Definition dec {A} (c : C) (op : hop S A) (bs : bytes) (a : A) (c' : C) : Prop :=
  forall s rest, benign (view s) -> st s = c -> content (view s) = bs ++ rest ->
  exists s', op s = Ok (inl a, s') /\ benign (view s') /\ st s' = c' /\
             content (view s') = rest.

(** On every proper prefix of [bs], [op] reports an error. *)
Definition trunc {A} (c : C) (op : hop S A) (bs : bytes) : Prop :=
  forall s q, benign (view s) -> st s = c -> content (view s) ++ q = bs -> q <> [] ->
  exists e s', op s = Ok (inr e, s').

Lemma dec_ret : forall A c (a : A), dec c (hret a) [] a c.
Proof. intros A c a s rest B E H. exists s. cbn in H. auto. Qed.

Lemma dec_bind : forall A B c c1 c2 (m : hop S A) (k : A -> hop S B) bs1 bs2 a b,
  dec c m bs1 a c1 -> dec c1 (k a) bs2 b c2 -> dec c (hbind m k) (bs1 ++ bs2) b c2.
Proof.
  intros A B c c1 c2 m k bs1 bs2 a b H1 H2 s rest Bn E C0.
  rewrite <- app_assoc in C0. destruct (H1 s _ Bn E C0) as (s1 & R1 & B1 & E1 & C1).
  destruct (H2 s1 _ B1 E1 C1) as (s2 & R2 & B2 & E2 & C2).
  exists s2. unfold hbind. rewrite R1. cbn [obind]. auto.
Qed.

Lemma dec_eq : forall A c c' (op : hop S A) bs bs' a,
  dec c op bs a c' -> bs = bs' -> dec c op bs' a c'.
Proof. intros; subst; assumption. Qed.

Lemma trunc_nil : forall A c (op : hop S A), trunc c op [].
Proof. intros A c op s q _ _ H N. apply app_eq_nil in H. tauto. Qed.

Lemma trunc_bind : forall A B c c1 (m : hop S A) (k : A -> hop S B) bs1 bs2 a,
  trunc c m bs1 -> dec c m bs1 a c1 -> trunc c1 (k a) bs2 ->
  trunc c (hbind m k) (bs1 ++ bs2).
Proof.
  intros A B c c1 m k bs1 bs2 a T1 D1 T2 s q Bn E C0 N.
  destruct (prefix_app_split _ _ _ _ C0 N) as [(q' & P & N')|(x & P & P2)].
  - destruct (T1 s q' Bn E P N') as (e & s' & R). exists e, s'.
    unfold hbind. rewrite R. reflexivity.
  - destruct (D1 s x Bn E P) as (s1 & R1 & B1 & E1 & C1).
    rewrite <- C1 in P2. destruct (T2 s1 q B1 E1 P2 N) as (e & s' & R).
    exists e, s'. unfold hbind. rewrite R1. exact R.
Qed.

Lemma trunc_eq : forall A c (op : hop S A) bs bs',
  trunc c op bs -> bs = bs' -> trunc c op bs'.
Proof. intros; subst; assumption. Qed.

(** Repetition, with the state unchanged by each element. *)
Lemma dec_repeat : forall A B c (m : hop S A) (enc : B -> bytes) (f : B -> A) (l : list B),
  (forall x, In x l -> dec c m (enc x) (f x) c) ->
  dec c (hrepeat (length l) m) (concat (map enc l)) (map f l) c.
Proof.
  induction l as [|x l IH]; intros H; cbn [length hrepeat map concat].
  - apply dec_ret.
  - eapply dec_bind; [apply H; left; reflexivity|].
    eapply dec_eq; [eapply dec_bind; [apply IH; intros; apply H; right; assumption|]|].
    + apply dec_ret.
    + apply app_nil_r.
Qed.

Lemma trunc_repeat : forall A B c (m : hop S A) (enc : B -> bytes) (f : B -> A) (l : list B),
  (forall x, In x l -> dec c m (enc x) (f x) c) ->
  (forall x, In x l -> trunc c m (enc x)) ->
  trunc c (hrepeat (length l) m) (concat (map enc l)).
Proof.
  induction l as [|x l IH]; intros D T; cbn [length hrepeat map concat].
  - apply trunc_nil.
  - eapply trunc_bind; [apply T; left; reflexivity|apply D; left; reflexivity|].
    eapply trunc_eq; [eapply trunc_bind; [apply IH|apply dec_repeat|apply trunc_nil]
                     |apply app_nil_r]; intros; (apply D + apply T); right; assumption.
Qed.
End Rules.

(** ** Writers *)
Section WRules.
Context {S C : Type}.
Variable view : S -> wt.
Variable st : S -> C.

(** In state [c] on a transport that accepts everything, [op] emits exactly [bs]. *)
Definition enc (c : C) (op : wop S) (bs : bytes) (c' : C) : Prop :=
  forall s, w_sched (view s) = [] -> st s = c ->
  exists s', op s = Ok (None, s') /\ view s' = MkWt (w_out (view s) ++ bs) [] /\ st s' = c'.

Lemma enc_seq : forall c c1 c2 m k bs1 bs2,
  enc c m bs1 c1 -> enc c1 k bs2 c2 -> enc c (m >>> k) (bs1 ++ bs2) c2.
Proof.
  intros c c1 c2 m k bs1 bs2 H1 H2 s W E.
  destruct (H1 s W E) as (s1 & R1 & V1 & E1).
  destruct (H2 s1) as (s2 & R2 & V2 & E2); [rewrite V1; reflexivity|assumption|].
  exists s2. unfold wseq. rewrite R1. cbn [obind]. split; [assumption|]. split; [|assumption].
  rewrite V2, V1. cbn [w_out]. now rewrite app_assoc.
Qed.

Lemma enc_eq : forall c op bs bs' c', enc c op bs c' -> bs = bs' -> enc c op bs' c'.
Proof. intros; subst; assumption. Qed.

Lemma enc_nop : forall c, enc c nop [] c.
Proof.
  intros c s W E. exists s. split; [reflexivity|]. split; [|assumption].
  rewrite app_nil_r. destruct (view s); cbn in *; subst; reflexivity.
Qed.

Lemma enc_seqs : forall A c (f : A -> wop S) (e : A -> bytes) l,
  (forall x, In x l -> enc c (f x) (e x) c) ->
  enc c (wseqs (map f l)) (concat (map e l)) c.
Proof.
  induction l as [|x l IH]; intros H; cbn [map wseqs concat].
  - apply enc_nop.
  - eapply enc_seq; [apply H; left; reflexivity|apply IH; intros; apply H; right; assumption].
Qed.
End WRules.
