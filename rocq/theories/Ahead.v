(** What the binary and the compact protocol read of what follows a message: nothing. *)
From Coq Require Import ZArith List Bool Lia.
From Coq Require Import ZifyBool ZifyNat.
From Verif Require Import Base Errors Transport Proto Arith Values TransportProofs Access Binary Compact.
Import ListNotations.
Open Scope Z_scope.

(** ** Two readers on the same data with different things behind it *)
Section Near.
Context {S : Type}.
Variable near : S -> S -> Prop.
(** The first has read all there was. *)
Variable dead : S -> Prop.
Definition jres {A} (o1 o2 : outcome (A * S)) : Prop :=
  match o1 with
  | Ok (a, s1) => dead s1 \/ exists s2, o2 = Ok (a, s2) /\ near s1 s2
  | _ => True
  end.
Definition dres {A} (o : outcome (A * S)) : Prop := match o with Ok (_, s) => dead s | _ => True end.
Definition jop {A} (f : S -> outcome (A * S)) : Prop :=
  (forall s1 s2, near s1 s2 -> jres (f s1) (f s2)) /\ forall s, dead s -> dres (f s).

Lemma jop_ok : forall A (a : A), jop (fun s => Ok (a, s)).
Proof. intros A a. split; [intros s1 s2 N; right; eauto|intros s D; exact D]. Qed.
Lemma jop_panic : forall A, @jop A (fun _ => Panic).
Proof. intros A. split; [intros; exact I|intros; exact I]. Qed.
Lemma jop_bind : forall A B (f : S -> outcome (A * S)) (k : A * S -> outcome (B * S)),
  jop f -> (forall a, jop (fun s => k (a, s))) -> jop (fun s => obind (f s) k).
Proof.
  intros A B f k [F1 F2] K. split.
  - intros s1 s2 N. specialize (F1 s1 s2 N). destruct (f s1) as [[a s1']| |]; cbn [obind]; try exact I.
    destruct F1 as [D|(s2' & -> & N')].
    + destruct (K a) as [_ K2]. specialize (K2 s1' D). destruct (k (a, s1')) as [[b s]| |]; cbn in *; auto.
    + cbn [obind]. apply (K a), N'.
  - intros s D. specialize (F2 s D). destruct (f s) as [[a s']| |]; cbn [obind]; try exact I. apply (K a), F2.
Qed.
Lemma jop_map : forall A B (f : S -> outcome (A * S)) (g : A -> B),
  jop f -> jop (fun s => obind (f s) (fun '(a, s') => Ok (g a, s'))).
Proof. intros A B f g F. apply jop_bind; [exact F|]. intro a. apply jop_ok. Qed.

Record jproto (R : rproto S) : Prop := MkJ {
  jMessageBegin : jop (rMessageBegin R); jMessageEnd : jop (rMessageEnd R);
  jStructBegin : jop (rStructBegin R); jStructEnd : jop (rStructEnd R);
  jFieldBegin : jop (rFieldBegin R); jFieldEnd : jop (rFieldEnd R);
  jMapBegin : jop (rMapBegin R); jMapEnd : jop (rMapEnd R);
  jListBegin : jop (rListBegin R); jListEnd : jop (rListEnd R);
  jSetBegin : jop (rSetBegin R); jSetEnd : jop (rSetEnd R);
  jBool : jop (rBool R); jByte : jop (rByte R); jI16 : jop (rI16 R); jI32 : jop (rI32 R);
  jI64 : jop (rI64 R); jDouble : jop (rDouble R); jString : jop (rString R); jBinary : jop (rBinary R)
}.

Lemma step : forall A (f : S -> outcome (A * S)) a s1 s1' s2, jop f -> near s1 s2 -> f s1 = Ok (a, s1') -> ~ dead s1' ->
  exists s2', f s2 = Ok (a, s2') /\ near s1' s2'.
Proof.
  intros A f a s1 s1' s2 [F _] N E D. specialize (F s1 s2 N). rewrite E in F. cbn in F. destruct F as [F|F]; [contradiction|exact F].
Qed.
Lemma back : forall A (f : S -> outcome (A * S)) a s s', jop f -> f s = Ok (a, s') -> dead s -> dead s'.
Proof. intros A f a s s' [_ F] E D. specialize (F s D). rewrite E in F. exact F. Qed.

Variable bin : bool.
Variable R : rproto S.
Hypothesis J : jproto R.
Scheme rd_i := Minimality for rd Sort Prop with rds_i := Minimality for rds Sort Prop
  with rdm_i := Minimality for rdm Sort Prop with rdf_i := Minimality for rdf Sort Prop.
Combined Scheme rd_all from rd_i, rds_i, rdm_i, rdf_i.

Lemma rd_back : (forall v s s', rd bin R v s s' -> dead s -> dead s') /\
  (forall l s s', rds bin R l s s' -> dead s -> dead s') /\
  (forall l s s', rdm bin R l s s' -> dead s -> dead s') /\
  (forall l s s', rdf bin R l s s' -> dead s -> dead s').
Proof.
  destruct J.
  apply rd_all; intros; auto;
    repeat match goal with
    | D : dead ?s, E : ?f ?s = Ok (?a, ?s'), K : jop ?f |- _ =>
        lazymatch goal with _ : dead s' |- _ => fail | _ => pose proof (back _ f _ _ _ K E D) end
    | D : dead ?s, E : dead ?s -> dead ?s' |- _ => specialize (E D)
    end; assumption.
Qed.
Hypothesis near_fun : forall s u u', near s u -> near s u' -> u = u'.
Lemma rd_near : (forall v s s', rd bin R v s s' -> ~ dead s' -> forall u, near s u -> exists u', rd bin R v u u' /\ near s' u') /\
  (forall l s s', rds bin R l s s' -> ~ dead s' -> forall u, near s u -> exists u', rds bin R l u u' /\ near s' u') /\
  (forall l s s', rdm bin R l s s' -> ~ dead s' -> forall u, near s u -> exists u', rdm bin R l u u' /\ near s' u') /\
  (forall l s s', rdf bin R l s s' -> ~ dead s' -> forall u, near s u -> exists u', rdf bin R l u u' /\ near s' u').
Proof.
  destruct rd_back as (B1 & B2 & B3 & B4). destruct J.
  Ltac live :=
    repeat match goal with
    | D : ~ dead ?s', E : ?f ?s = Ok (?a, ?s'), K : jop ?f |- _ =>
        lazymatch goal with _ : ~ dead s |- _ => fail
        | _ => assert (~ dead s) by (intro; apply D; apply (back _ f _ _ _ K E); assumption) end
    | D : ~ dead ?s', E : rd bin R ?v ?s ?s', B : forall v s s', rd bin R v s s' -> dead s -> dead s' |- _ =>
        lazymatch goal with _ : ~ dead s |- _ => fail | _ => assert (~ dead s) by (intro; apply D; eapply B; eassumption) end
    | D : ~ dead ?s', E : rds bin R ?v ?s ?s', B : forall v s s', rds bin R v s s' -> dead s -> dead s' |- _ =>
        lazymatch goal with _ : ~ dead s |- _ => fail | _ => assert (~ dead s) by (intro; apply D; eapply B; eassumption) end
    | D : ~ dead ?s', E : rdm bin R ?v ?s ?s', B : forall v s s', rdm bin R v s s' -> dead s -> dead s' |- _ =>
        lazymatch goal with _ : ~ dead s |- _ => fail | _ => assert (~ dead s) by (intro; apply D; eapply B; eassumption) end
    | D : ~ dead ?s', E : rdf bin R ?v ?s ?s', B : forall v s s', rdf bin R v s s' -> dead s -> dead s' |- _ =>
        lazymatch goal with _ : ~ dead s |- _ => fail | _ => assert (~ dead s) by (intro; apply D; eapply B; eassumption) end
    end.
  Ltac run :=
    repeat match goal with
    | N : near ?s ?u, E : ?f ?s = Ok (?a, ?s'), K : jop ?f, D : ~ dead ?s' |- _ =>
        lazymatch goal with _ : near s' _ |- _ => fail
        | _ => let u' := fresh "u" in let E' := fresh "E" in let N' := fresh "N" in
               destruct (step _ f a s s' u K N E D) as (u' & E' & N') end
    | N : near ?s ?u, D : ~ dead ?s', IH : ~ dead ?s' -> forall u, near ?s u -> exists u', _ |- _ =>
        lazymatch goal with _ : near s' _ |- _ => fail
        | _ => let u' := fresh "u" in let E' := fresh "E" in let N' := fresh "N" in
               destruct (IH D u N) as (u' & E' & N') end
    end.
  apply rd_all.
  7: {
    intros b s s' E Eb D u N. destruct (step _ _ _ _ _ _ jString0 N E D) as (u' & E' & N').
    exists u'. split; [|exact N']. constructor; [exact E'|]. intro Hb.
    destruct (step _ _ _ _ _ _ jBinary0 N (Eb Hb) D) as (u2 & E2 & N2). rewrite (near_fun _ _ _ N' N2). exact E2.
  }
  all: intros; live; run; eexists; (split; [|eassumption]); econstructor; eassumption.
Qed.
End Near.

(** ** A byte behind the data *)
Definition mark : rt := [([0], None)].
Section Tail.
Variable t : rt.
(** The data to come, before the byte and before [t]. *)
Definition tails (r1 r2 : rt) : Prop := exists q, benign q /\ r1 = q ++ mark /\ r2 = q ++ t.
Definition done (r : rt) : Prop := content r = [].
Lemma tails_fun : forall r u u', tails r u -> tails r u' -> u = u'.
Proof.
  intros r u u' (q & _ & E & ->) (q' & _ & E' & ->). rewrite E in E'. apply app_inv_tail in E'. congruence.
Qed.

Lemma loop_tails : forall q n got e, benign q ->
  match read_all_loop n got e (q ++ mark) with
  | (c, d, e', r1') => done r1' \/
      exists q', benign q' /\ r1' = q' ++ mark /\ read_all_loop n got e (q ++ t) = (c, d, e', q' ++ t) /\
        (length (content q') + n = length (content q))%nat
  end.
Proof.
  assert (G : forall n got e, match read_all_loop (S n) got e mark with (_, _, _, r) => done r end).
  { intros [|n] got e; cbn; reflexivity. }
  assert (Z0 : forall got e r, read_all_loop 0 got e r = (Z.of_nat got, [], e, r)) by (intros; destruct r; reflexivity).
  induction q as [|[bs e0] q IH]; intros n got e B.
  - destruct n as [|n].
    + cbn [app]. rewrite !Z0. right. exists []. repeat split. constructor.
    + cbn [app]. specialize (G n got e). destruct (read_all_loop (S n) got e mark) as [[[c d] e'] r1']. left. exact G.
  - inversion B as [|? ? [B1 B2] Br]; subst. cbn in B1, B2. subst e0.
    destruct n as [|n].
    + rewrite !Z0. right. exists ((bs, None) :: q). split; [exact B|]. split; [reflexivity|]. split; [reflexivity|apply Nat.add_0_r].
    + cbn [app read_all_loop]. destruct bs as [|b bs]; [congruence|]. destruct (S n <? length (b :: bs))%nat eqn:L.
      * right. exists ((skipn (S n) (b :: bs), None) :: q). split.
        { constructor; [|exact Br]. split; [|reflexivity]. cbn [fst]. intro K.
          apply (f_equal (@length _)) in K. rewrite skipn_length in K. cbn [length] in *. lia. }
        split; [reflexivity|]. split; [reflexivity|]. unfold content. cbn [map concat fst].
        rewrite !app_length, skipn_length. cbn [length] in *. lia.
      * specialize (IH (S n - length (b :: bs))%nat (got + length (b :: bs))%nat None Br).
        destruct (read_all_loop (S n - length (b :: bs)) (got + length (b :: bs)) None (q ++ mark)) as [[[c d] e'] r1'].
        destruct IH as [D|(q' & Bq & -> & -> & Lq)]; [left; exact D|].
        right. exists q'. split; [exact Bq|]. split; [reflexivity|]. split; [reflexivity|].
        unfold content in *. cbn [map concat fst]. rewrite app_length. lia.
Qed.
Lemma loop_done : forall r n got e, done r -> match read_all_loop n got e r with (_, _, _, r') => done r' end.
Proof.
  unfold done. induction r as [|[bs e0] r IH]; intros n got e D; destruct n as [|n]; cbn [read_all_loop]; try exact D.
  unfold content in D. cbn [map concat fst] in D. apply app_eq_nil in D. destruct D as [-> D]. exact D.
Qed.
Lemma all_tails : forall n r1 r2, tails r1 r2 ->
  match read_all n r1 with
  | (c, d, e, r1') => done r1' \/
      exists r2', read_all n r2 = (c, d, e, r2') /\ tails r1' r2' /\ (length (content r1') + n = length (content r1))%nat
  end.
Proof.
  intros n r1 r2 (q & B & -> & ->). unfold read_all. pose proof (loop_tails q n 0 None B) as K.
  destruct (read_all_loop n 0 None (q ++ mark)) as [[[c d] e] r1'].
  destruct K as [D|(q' & Bq & -> & -> & Lq)]; [left; exact D|]. right. eexists. split; [reflexivity|].
  split; [exists q'; auto|]. unfold content in *. rewrite !map_app, !concat_app, !app_length.
  rewrite <- Nat.add_assoc, (Nat.add_comm _ n), Nat.add_assoc. f_equal. exact Lq.
Qed.
Lemma all_done : forall n r, done r -> match read_all n r with (_, _, _, r') => done r' end.
Proof.
  intros n r D. unfold read_all. pose proof (loop_done r n 0 None D) as K.
  destruct (read_all_loop n 0 None r) as [[[c d] e] r']. exact K.
Qed.

Notation jo := (jop tails done).
Ltac jb :=
  repeat match goal with
  | |- jop _ _ (fun s => obind _ _) => apply jop_bind; [solve [auto with jops]|]; intros [? ?]; cbv beta iota
  | |- jop _ _ (fun s => Ok (_, s)) => apply jop_ok
  | |- jop _ _ (fun s => Panic) => apply jop_panic
  | |- jop _ _ (fun s => match ?e with Some _ => _ | None => _ end) => destruct e
  | |- jop _ _ (fun s => if ?c then _ else _) => destruct c
  | |- jop _ _ (fun s => let '(_, _) := ?x in _) => destruct x
  | |- jop _ _ _ => solve [auto with jops]
  end.
Lemma jread : forall A n (g : bytes -> option err -> A * option err),
  jo (fun r => let '(_, buf, e, r') := read_all n r in Ok (g buf e, r')).
Proof.
  intros A n g. split.
  - intros r1 r2 N. pose proof (all_tails n r1 r2 N) as K. destruct (read_all n r1) as [[[c d] e] r1'].
    cbn. destruct K as [D|(r2' & -> & N' & _)]; [left; exact D|]. right. eauto.
  - intros r D. pose proof (all_done n r D) as K. destruct (read_all n r) as [[[c d] e] r']. exact K.
Qed.
Lemma jnop : forall S (near : S -> S -> Prop) dead, jop near dead nop.
Proof. intros. apply jop_ok. Qed.
Hint Resolve jnop jop_ok : jops.
Lemma jb_readAll : forall n, jo (b_readAll n).
Proof. intro n. exact (jread _ n (fun buf e => (buf, protocol_exc_from_os e))). Qed.
Hint Resolve jb_readAll : jops.
Lemma jb_byte : jo bReadByte. Proof. unfold bReadByte. jb. Qed.
Lemma jb_i16 : jo bReadI16. Proof. unfold bReadI16. jb. Qed.
Lemma jb_i32 : jo bReadI32. Proof. unfold bReadI32. jb. Qed.
Lemma jb_i64 : jo bReadI64. Proof. unfold bReadI64. jb. Qed.
Lemma jb_dbl : jo bReadDouble. Proof. unfold bReadDouble. jb. Qed.
Hint Resolve jb_byte jb_i16 jb_i32 jb_i64 jb_dbl : jops.
Lemma jb_bool : jo bReadBool. Proof. unfold bReadBool. jb. Qed.
Lemma jb_body : forall n, jo (bReadStringBody n).
Proof. intro n. unfold bReadStringBody. destruct (n <? 0); [apply jop_ok|]. exact (jread _ _ (fun buf e => (buf, protocol_exc_from_os e))). Qed.
Hint Resolve jb_bool jb_body : jops.
Lemma jb_str : jo bReadString. Proof. unfold bReadString. jb. Qed.
Lemma jb_bin : jo bReadBinary.
Proof.
  unfold bReadBinary. jb. exact (jread _ _ (fun buf e => (buf, protocol_exc_from_os e))).
Qed.
Hint Resolve jb_str jb_bin : jops.
Lemma jb_msg : forall strict, jo (bReadMessageBegin strict). Proof. intro. unfold bReadMessageBegin. jb. Qed.
Lemma jb_field : jo bReadFieldBegin. Proof. unfold bReadFieldBegin. jb. Qed.
Lemma jb_map : jo bReadMapBegin. Proof. unfold bReadMapBegin. jb. Qed.
Lemma jb_list : jo bReadListBegin. Proof. unfold bReadListBegin. jb. Qed.
Lemma jb_set : jo bReadSetBegin. Proof. unfold bReadSetBegin. jb. Qed.
Hint Resolve jb_msg jb_field jb_map jb_list jb_set : jops.
Theorem binary_near : forall strict, jproto tails done (binaryR strict).
Proof.
  intro strict. constructor; cbn [binaryR rMessageBegin rMessageEnd rStructBegin
    rStructEnd rFieldBegin rFieldEnd rMapBegin rMapEnd rListBegin rListEnd rSetBegin rSetEnd
    rBool rByte rI16 rI32 rI64 rDouble rString rBinary]; auto with jops.
Qed.

(** *** TCompactProtocol *)
Definition ctails (s1 s2 : cr) : Prop := tails (fst s1) (fst s2) /\ snd s1 = snd s2.
Definition cdone (s : cr) : Prop := done (fst s).
Lemma ctails_fun : forall s u u', ctails s u -> ctails s u' -> u = u'.
Proof.
  intros s [u1 u2] [v1 v2] [T E] [T' E']. cbn [fst snd] in *. rewrite (tails_fun _ _ _ T T'). congruence.
Qed.
Notation jc := (jop ctails cdone).
Lemma jcread : forall A n (g : bytes -> option err -> A * option err),
  jc (fun s => let '(_, buf, e, r') := read_all n (fst s) in Ok (g buf e, (r', snd s))).
Proof.
  intros A n g. split.
  - intros [r1 c1] [r2 c2] [N E]. cbn [fst snd] in *. pose proof (all_tails n r1 r2 N) as K.
    destruct (read_all n r1) as [[[c d] e] r1']. cbn.
    destruct K as [D|(r2' & -> & N' & _)]; [left; exact D|]. right. rewrite <- E. eexists. split; [reflexivity|]. split; [exact N'|reflexivity].
  - intros [r c0] D. cbn [fst snd] in *. pose proof (all_done n r D) as K. destruct (read_all n r) as [[[c d] e] r']. exact K.
Qed.
Lemma jop_ext : forall S (near : S -> S -> Prop) dead A (f g : S -> outcome (A * S)),
  (forall s, f s = g s) -> jop near dead f -> jop near dead g.
Proof.
  intros S near dead A f g E [F1 F2]. split; [intros; rewrite <- !E; auto|intros; rewrite <- E; auto].
Qed.
Lemma jc_byte : jc cReadByte.
Proof.
  apply (jop_ext _ _ _ _ (fun s => let '(_, buf, e, r') := read_all 1 (fst s) in
    Ok ((fun buf e => match e with Some _ => (0, protocol_exc_from_os e) | None => (at_ 0 buf, None) end) buf e, (r', snd s)))).
  - intros [r c]. unfold cReadByte. cbn [fst snd]. destruct (read_all 1 r) as [[[n b] [e|]] r']; reflexivity.
  - apply jcread.
Qed.
Lemma jc_dbl : jc cReadDouble.
Proof.
  apply (jop_ext _ _ _ _ (fun s => let '(_, buf, e, r') := read_all 8 (fst s) in
    Ok ((fun buf e => match e with Some _ => (0, protocol_exc_from_os e) | None => (le_uint64 buf, None) end) buf e, (r', snd s)))).
  - intros [r c]. unfold cReadDouble. cbn [fst snd]. destruct (read_all 8 r) as [[[n b] [e|]] r']; reflexivity.
  - apply jcread.
Qed.
Lemma jc_set : forall A (a : A) g, jc (fun s => Ok (a, (fst s, g (snd s)))).
Proof.
  intros A a g. split.
  - intros [r1 c1] [r2 c2] [N E]. cbn in *. right. subst c2. eexists. split; [reflexivity|]. split; [exact N|reflexivity].
  - intros [r c] D. exact D.
Qed.
Hint Resolve jc_byte jc_dbl : jops.
Lemma jc_loop_done : forall f sh res s, cdone s -> dres cdone (readVarint64_loop f sh res s).
Proof.
  induction f as [|f IH]; intros sh res s D; [exact I|]. cbn [readVarint64_loop].
  pose proof (proj2 jc_byte s D) as K. destruct (cReadByte s) as [[[b e] s']| |]; cbn [obind]; try exact I.
  cbn in K. destruct e; [exact K|]. cbv zeta. destruct (negb _); [exact K|]. apply IH, K.
Qed.
Lemma tails_byte : forall s1 s2 b e s1', ctails s1 s2 -> cReadByte s1 = Ok (b, e, s1') -> cdone s1' \/
  exists s2', cReadByte s2 = Ok (b, e, s2') /\ ctails s1' s2' /\
    (length (content (fst s1')) + 1 = length (content (fst s1)))%nat.
Proof.
  intros [r1 c1] [r2 c2] b e s1' [N E] K. cbn [fst snd] in *. subst c2. unfold cReadByte in *.
  pose proof (all_tails 1 r1 r2 N) as A. destruct (read_all 1 r1) as [[[n d] e0] r1'].
  destruct A as [D|(r2' & -> & N' & L)].
  - left. destruct e0; injection K as _ _ <-; exact D.
  - right. destruct e0; injection K as <- <- <-; eexists; (split; [reflexivity|]); (split; [split; [exact N'|reflexivity]|exact L]).
Qed.
Lemma jc_loop : forall f1 f2 sh res s1 s2, ctails s1 s2 ->
  (length (content (fst s1)) <= f1)%nat -> (length (content (fst s1)) <= f2)%nat ->
  jres ctails cdone (readVarint64_loop f1 sh res s1) (readVarint64_loop f2 sh res s2).
Proof.
  assert (Pos : forall s1 s2, ctails s1 s2 -> (1 <= length (content (fst s1)))%nat).
  { intros s1 s2 [(q & _ & E & _) _]. rewrite E. unfold content. rewrite map_app, concat_app, app_length. cbn. lia. }
  induction f1 as [|f1 IH]; intros f2 sh res s1 s2 N L1 L2; [specialize (Pos _ _ N); lia|].
  destruct f2 as [|f2]; [specialize (Pos _ _ N); lia|]. cbn [readVarint64_loop].
  pose proof (proj1 jc_byte s1 s2 N) as K. destruct (cReadByte s1) as [[[b e] s1']| |] eqn:E1; cbn [obind]; try exact I.
  clear K. destruct (tails_byte _ _ _ _ _ N E1) as [D|(s2' & -> & N' & L)].
  - destruct e; [left; exact D|]. cbv zeta. destruct (negb _); [left; exact D|].
    match goal with |- jres _ _ (readVarint64_loop ?f ?a ?r ?s) _ => pose proof (jc_loop_done f a r s D) as K; destruct (readVarint64_loop f a r s) as [[x s']| |] end;
      cbn in *; auto.
  - cbn [obind]. destruct e; [right; eauto|]. cbv zeta. destruct (negb _); [right; eauto|].
    apply IH; [exact N'|lia|lia].
Qed.
Lemma jc_v64 : jc readVarint64.
Proof.
  split.
  - intros s1 s2 N. unfold readVarint64. apply jc_loop; [exact N| |].
    + unfold rt_size. fold (content (fst s1)). apply Nat.le_succ_diag_r.
    + destruct N as [(q & _ & -> & ->) _]. unfold rt_size, content. rewrite !map_app, !concat_app, !app_length.
      change (length (concat (map fst mark))) with 1%nat. lia.
  - intros s D. apply jc_loop_done, D.
Qed.
Hint Resolve jc_v64 : jops.
Lemma jc_v32 : jc readVarint32. Proof. unfold readVarint32. jb. Qed.
Hint Resolve jc_v32 : jops.
Lemma jc_i32 : jc cReadI32. Proof. unfold cReadI32. jb. Qed.
Hint Resolve jc_i32 : jops.
Lemma jc_i16 : jc cReadI16. Proof. unfold cReadI16. jb. Qed.
Lemma jc_i64 : jc cReadI64. Proof. unfold cReadI64. jb. Qed.
Lemma jc_bin : jc cReadBinary.
Proof.
  unfold cReadBinary. apply jop_bind; [auto with jops|]. intros [n e].
  apply (jop_ext _ _ _ _ (fun s => match e with Some _ => Ok (([], protocol_exc_from_os e), s) | None =>
    if n =? 0 then Ok (([], None), s) else if n <? 0 then Panic else
    let '(_, buf, e', r') := read_all (Z.to_nat n) (fst s) in Ok ((fun buf (_ : option err) => (buf, None)) buf e', (r', snd s)) end)).
  - intros [r c]. reflexivity.
  - jb. apply jcread.
Qed.
Hint Resolve jc_i16 jc_i64 jc_bin : jops.
Lemma jc_str : jc cReadString. Proof. unfold cReadString. jb. Qed.
Lemma jc_bool : jc cReadBool.
Proof.
  split.
  - intros [r1 c1] [r2 c2] [N E]. cbn [fst snd] in *. subst c2. unfold cReadBool. destruct (boolValueIsNotNull c1).
    + right. eexists. split; [reflexivity|]. split; [exact N|reflexivity].
    + pose proof (proj1 (jop_map _ _ _ _ _ (fun '(v, e) => (v =? COMPACT_BOOLEAN_TRUE, e)) jc_byte) (r1, c1) (r2, c1) (conj N eq_refl)) as K.
      cbn beta in K. destruct (cReadByte (r1, c1)) as [[[v e] s1]| |]; cbn [obind] in *; try exact I.
      destruct K as [K|(s2 & K & N')]; [left; exact K|]. right. exists s2. split; [|exact N'].
      destruct (cReadByte (r2, c1)) as [[[v' e'] s2']| |]; cbn [obind] in *; congruence.
  - intros [r c] D. unfold cReadBool. destruct (boolValueIsNotNull c); [exact D|].
    pose proof (proj2 jc_byte (r, c) D) as K. destruct (cReadByte (r, c)) as [[[v e] s1]| |]; cbn in *; auto.
Qed.
Hint Resolve jc_str jc_bool : jops.
Lemma jc_msg : jc cReadMessageBegin. Proof. unfold cReadMessageBegin. jb. Qed.
Lemma jc_sb : jc cReadStructBegin.
Proof.
  apply (jop_ext _ _ _ _ (fun s => Ok (([], None), (fst s, (fun c => set_last c (lastFieldId c :: lastField c) 0) (snd s))))).
  - intros [r c]. reflexivity.
  - apply (jc_set _ _ (fun c => set_last c (lastFieldId c :: lastField c) 0)).
Qed.
Lemma jc_se : jc cReadStructEnd.
Proof.
  split.
  - intros [r1 c1] [r2 c2] [N E]. cbn in *. subst c2. destruct (lastField c1); [exact I|].
    right. eexists. split; [reflexivity|]. split; [exact N|reflexivity].
  - intros [r c] D. cbn in *. destruct (lastField c); [exact I|exact D].
Qed.
Lemma jc_field : jc cReadFieldBegin.
Proof.
  unfold cReadFieldBegin. apply jop_bind; [auto with jops|]. intros [t0 [e|]]; [jb|].
  destruct (Z.land t0 15 =? STOP); [jb|]. cbv zeta. apply jop_bind.
  - destruct (wraps 16 (Z.shiftr (Z.land t0 240) 4) =? 0); [auto with jops|]. split.
    + intros s1 s2 N. right. exists s2. destruct N as [N E]. rewrite E. split; [reflexivity|split; assumption].
    + intros s D. exact D.
  - intros [id [e|]]; [jb|]. destruct (getTType (Z.land t0 15)) as [ty [e|]]; [jb|].
    apply (jop_ext _ _ _ _ (fun s => Ok ((([], ty, id), None), (fst s, (fun c =>
      let c1 := if isBoolType t0 then set_boolValue c (Z.land t0 15 =? COMPACT_BOOLEAN_TRUE) true else c in
      set_last c1 (lastField c1) id) (snd s))))).
    + intros [r c]. reflexivity.
    + apply (jc_set _ _ (fun c =>
        let c1 := if isBoolType t0 then set_boolValue c (Z.land t0 15 =? COMPACT_BOOLEAN_TRUE) true else c in
        set_last c1 (lastField c1) id)).
Qed.
Lemma jc_map : jc cReadMapBegin.
Proof.
  unfold cReadMapBegin. apply jop_bind; [auto with jops|]. intros [n [e|]]; [jb|]. apply jop_bind; [|intros [? ?]; jb].
  destruct (negb (n =? 0)); jb.
Qed.
Lemma jc_list : jc cReadListBegin.
Proof.
  unfold cReadListBegin. apply jop_bind; [auto with jops|]. intros [n [e|]]; [jb|]. cbv zeta. apply jop_bind; [|intros [? ?]; jb].
  destruct (_ =? 15); jb.
Qed.
Hint Resolve jc_msg jc_sb jc_se jc_field jc_map jc_list : jops.
Theorem compact_near : jproto ctails cdone compactR.
Proof.
  constructor; cbn [compactR rMessageBegin rMessageEnd rStructBegin
    rStructEnd rFieldBegin rFieldEnd rMapBegin rMapEnd rListBegin rListEnd rSetBegin rSetEnd
    rBool rByte rI16 rI32 rI64 rDouble rString rBinary]; auto with jops.
Qed.
End Tail.
