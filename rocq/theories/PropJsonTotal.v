(** C67: the JSON readers return on every input. *)
From Coq Require Import ZArith List Bool Lia String.
From Coq Require Import ZifyBool ZifyNat.
From Verif Require Import Base Arith Errors Transport TransportProofs Proto BufIO BufRead
  JsonText Strconv F64 GoVal Names Json Skip ReadProg JsonTotal JsonSkip PropJson.
Import ListNotations.
Local Open Scope list_scope.
Local Notation length := List.length.
Open Scope Z_scope.

(** ** C67 *)

(** Every call the program can come to make satisfies [ok]. *)
Fixpoint calls_in {X} (ok : forall A, rcall A -> Prop) (p : rprog X) : Prop :=
  match p with
  | PDone _ => True
  | @PCall _ A c k => ok A c /\ forall a e, calls_in ok (k a e)
  end.

(** No Skip, no ReadBool. *)
Definition plain_call (A : Type) (c : rcall A) : Prop := ~ is_skip c /\ ~ is_bool_call c.
(** Skip with fuel for [n] bytes of input (the Go function has no fuel). *)
Definition fuelled (n : nat) (A : Type) (c : rcall A) : Prop :=
  match c with CSkip f _ _ _ => (2 * n + 2 <= f)%nat | _ => True end.

Lemma fresh_SI : forall (Cl : Prop) r, (Cl -> clean r) ->
  SI Cl (simple_r r) /\ SI Cl (json_r r) /\ srem (simple_r r) = length (content r) /\ srem (json_r r) = length (content r).
Proof.
  intros Cl r H.
  assert (Hb : B Cl (new_breader r)).
  { split; [split|]; cbn [new_breader b_rt b_err]; auto. }
  split; [|split; [|split; reflexivity]].
  - split; [exact Hb|]. exists []. reflexivity.
  - split; [exact Hb|]. exists [TopLevel]. reflexivity.
Qed.

Lemma run_ret : forall Cl X (R : rproto jr) (ok : forall A, rcall A -> Prop) (p : rprog X) n,
  (forall A c s, ok A c -> SI Cl s -> (srem s <= n)%nat ->
     exists a e s', call R c s = Ok (a, e, s') /\ SI Cl s' /\ (srem s' <= srem s)%nat) ->
  calls_in ok p -> forall s, SI Cl s -> (srem s <= n)%nat ->
  exists x s', run R p s = Ok (x, s') /\ (srem s' <= srem s)%nat.
Proof.
  intros Cl X R ok p n Hc. induction p as [x|A c k IH]; intros Hp s Hs Hn; cbn [run].
  - eauto.
  - destruct Hp as [H1 H2]. destruct (Hc A c s H1 Hs Hn) as (a & e & s1 & -> & S1 & R1). cbn [obind].
    destruct (IH a e (H2 a e) s1 S1 ltac:(lia)) as (x & s2 & -> & R2). exists x, s2. split; [auto|lia].
Qed.

(** Whatever the bytes, however the transport delivers them and whatever errors it gives, and
    whatever calls are made in whatever order, each call returns. *)
Theorem C67_returns_partial : forall J X (p : rprog X) r, calls_in plain_call p ->
  (exists x s, run (jsonR J) p (json_r r) = Ok (x, s) /\ (srem s <= length (content r))%nat) /\
  (exists x s, run (simpleR J) p (simple_r r) = Ok (x, s) /\ (srem s <= length (content r))%nat).
Proof.
  intros J X p r Hp. destruct (fresh_SI False r) as (S1 & S2 & R1 & R2); [tauto|].
  destruct (run_ret False X (jsonR J) plain_call p (length (content r))) with (s := json_r r) as (x1 & s1 & E1 & L1);
    [|assumption|assumption|lia|].
  { intros A c s [H1 H2] Hs _. apply (json_calls_ret False J A c); auto. }
  destruct (run_ret False X (simpleR J) plain_call p (length (content r))) with (s := simple_r r) as (x2 & s2 & E2 & L2);
    [|assumption|assumption|lia|].
  { intros A c s [H1 H2] Hs _. apply (json_calls_ret False J A c); auto. }
  rewrite R2 in L1. rewrite R1 in L2. eauto 10.
Qed.
Print Assumptions C67_returns_partial.

(** When no error comes together with data, ReadBool and Skip return too. *)
Theorem C67_clean_partial : forall J X (p : rprog X) r, clean r -> calls_in (fuelled (length (content r))) p ->
  (exists x s, run (jsonR J) p (json_r r) = Ok (x, s) /\ (srem s <= length (content r))%nat) /\
  (exists x s, run (simpleR J) p (simple_r r) = Ok (x, s) /\ (srem s <= length (content r))%nat).
Proof.
  intros J X p r Hr Hp. destruct (fresh_SI True r) as (S1 & S2 & R1 & R2); [tauto|].
  assert (G : forall A (c : rcall A) s, fuelled (length (content r)) A c -> SI True s ->
    (srem s <= length (content r))%nat ->
    (exists a e s', call (jsonR J) c s = Ok (a, e, s') /\ SI True s' /\ (srem s' <= srem s)%nat) /\
    (exists a e s', call (simpleR J) c s = Ok (a, e, s') /\ SI True s' /\ (srem s' <= srem s)%nat)).
  { intros A c s H1 Hs Hn.
    assert (D : is_skip c \/ ~ is_skip c) by (destruct c; cbn; tauto).
    destruct D as [D|D]; [|destruct (json_calls_ret True J A c D ltac:(tauto)) as [C1 C2]; split; [apply C1|apply C2]; auto].
    destruct c; try destruct D. cbn [fuelled] in H1.
    destruct (json_skip_ret True I J M fuel t d s Hs ltac:(lia)) as [(e1 & s1 & E1 & Z1) (e2 & s2 & E2 & Z2)].
    cbn [call]. unfold unit_op. rewrite E1, E2. cbn [obind]. eauto 10. }
  destruct (run_ret True X (jsonR J) (fuelled (length (content r))) p (length (content r))) with (s := json_r r) as (x1 & s1 & E1 & L1);
    [intros A c s H1 Hs Hn; apply G; auto|assumption|assumption|lia|].
  destruct (run_ret True X (simpleR J) (fuelled (length (content r))) p (length (content r))) with (s := simple_r r) as (x2 & s2 & E2 & L2);
    [intros A c s H1 Hs Hn; apply G; auto|assumption|assumption|lia|].
  rewrite R2 in L1. rewrite R1 in L2. eauto 10.
Qed.
Print Assumptions C67_clean_partial.

(** The whole buffer filled by a string of 4094 bytes and the two bytes "tr", with the end of
    input reported together with them. *)
Definition long_then_tr : rt := [([34] ++ repeat 120 4092 ++ [34] ++ lit "tr", Some EEof)].
Definition string_then_bool : rprog bool := PCall CString (fun _ _ => PCall CBool (fun b _ => PDone b)).

(** ReadBool slices four bytes out of the two that Peek gives, beyond the end of the buffer. *)
Theorem C67_bool_refuted : exists r (p : rprog bool),
  run (jsonR J0) p (json_r r) = Panic /\ run (simpleR J0) p (simple_r r) = Panic.
Proof. exists long_then_tr, string_then_bool. split; vm_compute; reflexivity. Qed.
Print Assumptions C67_bool_refuted.

(** A program on malformed input: it keeps reading after an error. *)
Definition stubborn : rprog (list (option err)) :=
  PCall CListBegin (fun _ e1 => PCall CBool (fun _ e2 => PCall CListEnd (fun _ e3 =>
  PCall (CSkip 50 64 STRUCT 64) (fun _ e4 => PDone [e1; e2; e3; e4])))).
Example C67_ex :
  let r := [(lit "[11,2,tr}", None); ([], Some EEof); (lit "{""a"":}", None)] in
  clean r /\ calls_in (fuelled (length (content r))) stubborn /\
  match run (jsonR J0) stubborn (json_r r) with
  | Ok (es, _) => es = [None; Some (EProtocol INVALID_DATA); Some (EProtocol UNKNOWN_PROTOCOL_EXCEPTION); Some (EProtocol INVALID_DATA)]
  | _ => False
  end.
Proof.
  cbv zeta. split; [|split].
  - repeat (apply Forall_cons; [cbn; auto|]). apply Forall_nil.
  - cbn. repeat split; intros; lia.
  - vm_compute. reflexivity.
Qed.
