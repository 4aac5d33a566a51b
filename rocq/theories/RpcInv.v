(** Calls on handlers that keep an invariant depend only on what the handler does where it holds. *)
From Coq Require Import ZArith List Bool Lia.
From Verif Require Import Base Errors Transport Proto Skip Arith Values TField GoVal Compare Gen AppExc Rpc RpcProofs.
Import ListNotations.
Open Scope Z_scope.

Section Inv.
Context {SR SW H : Type}.
Variable R : rproto SR.
Variable W : wproto SW.
Variable flush : wop SW.
Variable freshR : SR -> SR.
Variable freshW : SW -> SW.
Variable x : ext.
Variable M : Z.
Variable cf fuel : nat.
Variable errtext : err -> bytes.
Variable handle handle' : H -> bytes -> list any -> (list (Z * any) * option bytes) * H.
Variable inv : H -> Prop.
Hypothesis agree : forall h name vals, inv h -> handle h name vals = handle' h name vals.
Hypothesis keeps : forall h name vals, inv h -> inv (snd (handle h name vals)).

Lemma process_fn_agree : forall f seq h si so, inv h ->
  process_fn R W flush x M cf fuel errtext handle f seq h si so =
  process_fn R W flush x M cf fuel errtext handle' f seq h si so.
Proof.
  intros f seq h si so I. unfold process_fn. destruct (gread _ _ _ _ _ _ _) as [[[a|e] s1]| |]; cbn [obind]; try reflexivity.
  destruct (rMessageEnd R s1) as [[e s2]| |]; cbn [obind]; try reflexivity. rewrite agree by exact I. reflexivity.
Qed.
Lemma process_fn_keeps : forall f seq h si so p, inv h ->
  process_fn R W flush x M cf fuel errtext handle f seq h si so = Ok p -> inv (p_h p).
Proof.
  intros f seq h si so p I. unfold process_fn. destruct (gread _ _ _ _ _ _ _) as [[[a|e] s1]| |]; cbn [obind]; try discriminate.
  2:{ destruct (rMessageEnd R s1) as [[e2 s2]| |]; cbn [obind]; try discriminate.
      destruct (write_exception _ _ _ _ _ _) as [so'| |]; cbn [obind]; try discriminate.
      intros E. injection E as <-. exact I. }
  destruct (rMessageEnd R s1) as [[e2 s2]| |]; cbn [obind]; try discriminate.
  match goal with |- context [handle h ?n ?v] => pose proof (keeps h n v I) as K; destruct (handle h n v) as [[attrs herr] h'] end.
  cbn [snd] in K. destruct herr as [text|].
  - destruct (write_exception _ _ _ _ _ _) as [so'| |]; cbn [obind]; try discriminate.
    intros E. injection E as <-. exact K.
  - destruct (wMessageBegin W _ _ _ _) as [[e3 o1]| |]; cbn [obind]; try discriminate.
    destruct (gwrite_result _ _ _ _ _ _ _) as [[e4 o2]| |]; cbn [obind]; try discriminate.
    destruct (wMessageEnd W _) as [[e5 o3]| |]; cbn [obind]; try discriminate.
    destruct (flush o3) as [[e6 o4]| |]; cbn [obind]; try discriminate.
    destruct (first_error _ _); intros E; injection E as <-; exact K.
Qed.
Lemma process_agree : forall fs h si so, inv h ->
  process R W flush x M cf fuel errtext handle fs h si so =
  process R W flush x M cf fuel errtext handle' fs h si so.
Proof.
  intros fs h si so I. unfold process. destruct (rMessageBegin R si) as [[[[[name t] seq] e] s1]| |]; cbn [obind]; try reflexivity.
  destruct e; [reflexivity|]. destruct (lookup_fn fs name); [apply process_fn_agree, I|reflexivity].
Qed.
Lemma process_keeps : forall fs h si so p, inv h ->
  process R W flush x M cf fuel errtext handle fs h si so = Ok p -> inv (p_h p).
Proof.
  intros fs h si so p I. unfold process. destruct (rMessageBegin R si) as [[[[[name t] seq] e] s1]| |]; cbn [obind]; try discriminate.
  destruct e; [intros E; injection E as <-; exact I|].
  destruct (lookup_fn fs name); [apply process_fn_keeps, I|].
  destruct (skip_default _ _ _ _ _) as [[e2 s2]| |]; cbn [obind]; try discriminate.
  destruct (rMessageEnd R s2) as [[e3 s3]| |]; cbn [obind]; try discriminate.
  destruct (write_exception _ _ _ _ _ _) as [so'| |]; cbn [obind]; try discriminate.
  intros E. injection E as <-. exact I.
Qed.

Variable fs : list func.
Variable drain : SW -> bytes * SW.
Variable feed : SR -> list bytes -> SR.
Variable cut : nat -> bytes -> list bytes.
Lemma call_agree : forall n f args st, inv (pr_h st) ->
  call R W flush freshR freshW x M cf fuel errtext handle fs drain feed cut n f args st =
  call R W flush freshR freshW x M cf fuel errtext handle' fs drain feed cut n f args st.
Proof.
  intros n f args st I. unfold call. destruct (send _ _ _ _ _ _ _ _ _) as [[[e c1] w1]| |]; cbn [obind]; try reflexivity.
  destruct e; [reflexivity|]. destruct (drain (o_own w1)) as [b1 o1]. rewrite process_agree by exact I. reflexivity.
Qed.
Lemma call_keeps : forall n f args st r st', inv (pr_h st) ->
  call R W flush freshR freshW x M cf fuel errtext handle fs drain feed cut n f args st = Ok (r, st') -> inv (pr_h st').
Proof.
  intros n f args st r st' I. unfold call. destruct (send _ _ _ _ _ _ _ _ _) as [[[e c1] w1]| |]; cbn [obind]; try discriminate.
  destruct e; [intros E; injection E as <- <-; exact I|]. destruct (drain (o_own w1)) as [b1 o1].
  destruct (process _ _ _ _ _ _ _ _ _ _ _ _ _) as [p| |] eqn:P; cbn [obind]; try discriminate.
  apply process_keeps in P; [|exact I]. destruct (drain (p_out p)) as [b2 so']. destruct (fn_oneway f).
  - intros E. injection E as <- <-. exact P.
  - destruct (recv _ _ _ _ _ _ _ _ _) as [[[r' c2] w3]| |]; cbn [obind]; try discriminate.
    intros E. injection E as <- <-. exact P.
Qed.
Lemma calls_agree : forall l n st, inv (pr_h st) ->
  calls R W flush freshR freshW x M cf fuel errtext handle fs drain feed cut n l st =
  calls R W flush freshR freshW x M cf fuel errtext handle' fs drain feed cut n l st.
Proof.
  induction l as [|[f args] l IH]; intros n st I; [reflexivity|]. cbn [calls]. rewrite <- call_agree by exact I.
  destruct (call _ _ _ _ _ _ _ _ _ _ _ _ _ _ _ _ _ _ _) as [[r st1]| |] eqn:E; cbn [obind]; try reflexivity.
  rewrite IH; [reflexivity|]. eapply call_keeps; eassumption.
Qed.

Lemma served_agree : forall f args h r h', inv h -> served handle' f args h r h' -> served handle f args h r h' /\ inv h'.
Proof.
  intros f args h r h' I S. destruct S as [vals attrs h' attrs' F E Rt|vals attrs text h' F E]; rewrite <- agree in E by exact I;
    (split; [econstructor; eassumption|]); match goal with |- inv ?h1 =>
      match type of E with ?t = _ => replace h1 with (snd t) by (rewrite E; reflexivity); apply keeps, I end end.
Qed.
Lemma serves_agree : forall l h rs h', inv h -> serves handle' l h rs h' -> serves handle l h rs h' /\ inv h'.
Proof.
  intros l h rs h' I S. induction S as [h|f args l h r h1 rs h2 S1 S2 IH]; [split; [constructor|exact I]|].
  apply served_agree in S1; [|exact I]. destruct S1 as [S1 I1]. destruct (IH I1). split; [econstructor; eassumption|assumption].
Qed.
End Inv.
