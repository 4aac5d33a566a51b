(** Clients and processors over two protocols that answer alike (Het.v), and TFramedTransport
    between a client and a processor. *)
From Coq Require Import ZArith List Bool Lia.
From Coq Require Import ZifyBool ZifyNat.
From Verif Require Import Base Errors Transport Proto Arith TransportProofs Binary Compact Buffer
  Framed FramedProofs Over Het OverSim OverInst.
From Verif Require Import TField GoVal Compare TMap Values Gen AppExc Rpc.
Import ListNotations.
Open Scope Z_scope.

Section Calls.
Context {SR1 SR2 SW1 SW2 H : Type}.
Variable simi : SR1 -> SR2 -> Prop.
Variable simo : SW1 -> SW2 -> Prop.
Variable simf : SW1 -> SW2 -> Prop.       (* after Flush *)
Variable R1 : rproto SR1. Variable R2 : rproto SR2.
Variable W1 : wproto SW1. Variable W2 : wproto SW2.
Variable flush1 : wop SW1. Variable flush2 : wop SW2.
Hypothesis RR : rrel false simi R1 R2.
Hypothesis WW : wrel false simo W1 W2.
Hypothesis FF : forall s1 s2, simo s1 s2 -> hsame false simf (flush1 s1) (flush2 s2).
Variable freshR1 : SR1 -> SR1. Variable freshR2 : SR2 -> SR2.
Hypothesis FRI : forall s1 s2, simi s1 s2 -> simi (freshR1 s1) (freshR2 s2).
Variable fresh1 : SW1 -> SW1. Variable fresh2 : SW2 -> SW2.
Hypothesis FR : forall s1 s2, simo s1 s2 -> simo (fresh1 s1) (fresh2 s2).
Variable x : ext.
Variable M : Z.
Variable cf fuel : nat.
Variable errtext : err -> bytes.
Variable handle : H -> bytes -> list any -> (list (Z * any) * option bytes) * H.
Variable fs : list func.
Variable drain1 : SW1 -> bytes * SW1. Variable drain2 : SW2 -> bytes * SW2.
Variable feed1 : SR1 -> list bytes -> SR1. Variable feed2 : SR2 -> list bytes -> SR2.
Variable cut1 cut2 : nat -> bytes -> list bytes.
Variable ok : bytes -> Prop.              (* messages the first carries *)
Variable clean : SW1 -> SW2 -> Prop.      (* nothing to be sent *)
Hypothesis CL : forall s1 s2, clean s1 s2 -> simo s1 s2.
Hypothesis XF : forall n s1 s2 i1 i2, simf s1 s2 -> ok (fst (drain2 s2)) -> simi i1 i2 ->
  clean (snd (drain1 s1)) (snd (drain2 s2)) /\
  simi (feed1 i1 (cut1 n (fst (drain1 s1)))) (feed2 i2 (cut2 n (fst (drain2 s2)))).
Hypothesis XC : forall s1 s2, clean s1 s2 -> ~ ok (fst (drain2 s2)).

Definition psim (p1 : @pair SR1 SW1 H) (p2 : @pair SR2 SW2 H) : Prop :=
  pr_c p1 = pr_c p2 /\ pr_h p1 = pr_h p2 /\ clean (o_own (pr_w p1)) (o_own (pr_w p2)) /\
  simi (i_own (pr_w p1)) (i_own (pr_w p2)) /\ simi (i_given (pr_w p1)) (i_given (pr_w p2)) /\
  simi (pr_in p1) (pr_in p2) /\ clean (pr_out p1) (pr_out p2).

(** Every message of the second, requests and replies, is one the first carries, and no SendX
    fails. *)
Fixpoint fits (n : nat) (l : list (func * list any)) (st : @pair SR2 SW2 H) : Prop :=
  match l with
  | [] => True
  | (f, args) :: l' =>
    (forall e c1 w1, send W2 flush2 fresh2 x fuel f args (pr_c st) (pr_w st) = Ok (e, c1, w1) ->
       e = None /\ ok (fst (drain2 (o_own w1))) /\
       forall p, process R2 W2 flush2 x M cf fuel errtext handle fs (pr_h st)
           (feed2 (pr_in st) (cut2 (2 * n) (fst (drain2 (o_own w1))))) (pr_out st) = Ok p ->
         ok (fst (drain2 (p_out p)))) /\
    forall r st1, Rpc.call R2 W2 flush2 freshR2 fresh2 x M cf fuel errtext handle fs drain2 feed2 cut2 n f args st = Ok (r, st1) ->
      fits (S n) l' st1
  end.

Lemma hrecv : forall f c (w1 : @world SR1 SW1) (w2 : @world SR2 SW2),
  simi (i_own w1) (i_own w2) -> simi (i_given w1) (i_given w2) ->
  match recv R1 freshR1 x M cf fuel f c w1, recv R2 freshR2 x M cf fuel f c w2 with
  | Ok (r1, c1, v1), Ok (r2, c2, v2) => r1 = r2 /\ c1 = c2 /\ o_own v1 = o_own w1 /\ o_own v2 = o_own w2 /\
      simi (i_own v1) (i_own v2) /\ simi (i_given v1) (i_given v2)
  | Panic, Panic => True
  | OutOfFuel, OutOfFuel => True
  | _, _ => False
  end.
Proof.
  intros f c w1 w2 I G. unfold recv.
  pose proof (hrecv_on false simi R1 R2 RR x M cf fuel f (c_seq c)) as K.
  destruct (c_in c) as [[]|]; [| |destruct (negb (c_factory c)); [exact Logic.I|]].
  - specialize (K _ _ I). destruct (recv_on R1 _ _ _ _ _ _ _) as [[r1 t1]| |], (recv_on R2 _ _ _ _ _ _ _) as [[r2 t2]| |];
      cbn in *; try contradiction; try discriminate; auto. destruct K as [-> K]. auto 8.
  - specialize (K _ _ G). destruct (recv_on R1 _ _ _ _ _ _ _) as [[r1 t1]| |], (recv_on R2 _ _ _ _ _ _ _) as [[r2 t2]| |];
      cbn in *; try contradiction; try discriminate; auto. destruct K as [-> K]. auto 8.
  - specialize (K _ _ (FRI _ _ I)). destruct (recv_on R1 _ _ _ _ _ _ _) as [[r1 t1]| |], (recv_on R2 _ _ _ _ _ _ _) as [[r2 t2]| |];
      cbn in *; try contradiction; try discriminate; auto. destruct K as [-> K]. auto 8.
Qed.

Notation call1 := (Rpc.call R1 W1 flush1 freshR1 fresh1 x M cf fuel errtext handle fs drain1 feed1 cut1).
Notation call2 := (Rpc.call R2 W2 flush2 freshR2 fresh2 x M cf fuel errtext handle fs drain2 feed2 cut2).
Lemma hcall_pair : forall n f args p1 p2, psim p1 p2 -> fits n [(f, args)] p2 ->
  hsame false psim (call1 n f args p1) (call2 n f args p2).
Proof.
  intros n f args p1 p2 (Ec & Eh & Eo & Ei & Eg & En & Eu) [F _]. unfold Rpc.call. rewrite Ec, Eh.
  pose proof (hsend false simo simf W1 W2 flush1 flush2 WW FF x fuel fresh1 fresh2 FR
    f args (pr_c p2) (pr_w p1) (pr_w p2) (CL _ _ Eo)) as S.
  destruct (send W1 _ _ _ _ _ _ _ _) as [[[e1 c1] v1]| |], (send W2 _ _ _ _ _ _ _ _) as [[[e2 c2] v2]| |];
    cbn [ssame] in S; try contradiction; try discriminate; cbn [obind]; try exact Logic.I.
  destruct S as (-> & -> & Sf & G1 & G2 & I1 & I2 & J1 & J2).
  destruct (F _ _ _ eq_refl) as (-> & O1 & F2).
  destruct (XF (2 * n) _ _ _ _ Sf O1 En) as (C1 & N1).
  destruct (drain1 (o_own v1)) as [b1 s1]. destruct (drain2 (o_own v2)) as [b2 s2]. cbn [fst snd] in *.
  pose proof (hprocess false simi simo simf R1 R2 W1 W2 flush1 flush2 RR WW FF x M cf fuel errtext handle fs (pr_h p2)
    _ _ _ _ N1 (CL _ _ Eu)) as P.
  destruct (process R1 _ _ _ _ _ _ _ _ _ _ _ _) as [q1| |], (process R2 _ _ _ _ _ _ _ _ _ _ _ _) as [q2| |];
    cbn [psame] in P; try contradiction; try discriminate; cbn [obind]; try exact Logic.I.
  destruct P as (Ps & Pe & Ph & Pi & Po). specialize (F2 _ eq_refl).
  destruct Po as [[Q1 Q2]|Po].
  { exfalso. rewrite Q2 in F2. exact (XC _ _ Eu F2). }
  destruct (XF (2 * n + 1) _ _ (i_own (pr_w p1)) (i_own (pr_w p2)) Po F2 Ei) as (C2 & N2).
  destruct (drain1 (p_out q1)) as [d1 t1]. destruct (drain2 (p_out q2)) as [d2 t2]. cbn [fst snd] in *.
  rewrite I1, I2, J1, J2, Ph. destruct (fn_oneway f).
  - cbn. unfold psim. cbn. auto 10.
  - pose proof (hrecv f c2 (MkWorld s1 (o_given v1) (feed1 (i_own (pr_w p1)) (cut1 (2 * n + 1)%nat d1)) (i_given (pr_w p1)))
      (MkWorld s2 (o_given v2) (feed2 (i_own (pr_w p2)) (cut2 (2 * n + 1)%nat d2)) (i_given (pr_w p2))) N2 Eg) as Rv.
    destruct (recv R1 _ _ _ _ _ _ _ _) as [[[r1 k1] z1]| |], (recv R2 _ _ _ _ _ _ _ _) as [[[r2 k2] z2]| |];
      try contradiction; cbn [obind]; try exact Logic.I.
    cbn [o_own] in Rv. destruct Rv as (-> & -> & U1 & U2 & U3 & U4).
    cbn. unfold psim. cbn. rewrite U1, U2. auto 10.
Qed.
Theorem hcalls : forall l n p1 p2, psim p1 p2 -> fits n l p2 ->
  hsame false psim
    (calls R1 W1 flush1 freshR1 fresh1 x M cf fuel errtext handle fs drain1 feed1 cut1 n l p1)
    (calls R2 W2 flush2 freshR2 fresh2 x M cf fuel errtext handle fs drain2 feed2 cut2 n l p2).
Proof.
  induction l as [|[f args] l IH]; intros n p1 p2 E F; cbn [calls]; [apply hsame_ok, E|].
  destruct F as [F1 F2].
  pose proof (hcall_pair n f args p1 p2 E (conj F1 (fun _ _ _ => Logic.I))) as C.
  destruct (call1 n f args p1) as [[r1 q1]| |], (call2 n f args p2) as [[r2 q2]| |];
    cbn in C; try contradiction; try discriminate; cbn [obind]; try exact Logic.I.
  destruct C as [-> C]. eapply hsame_bind; [apply IH; [exact C|apply (F2 _ _ eq_refl)]|].
  intros rs t1 t2 E'. apply hsame_ok, E'.
Qed.
End Calls.

(** ** Frames between a client and a processor *)
Definition fdrain (f : framed) : bytes * framed :=
  (w_out (f_w f), MkFramed (MkWt [] []) (f_r f) (f_wbuf f) (f_rbuf f)).
Definition ffeed (f : framed) (cs : list bytes) : framed :=
  MkFramed (f_w f) (f_r f ++ map (fun c => (c, None)) cs) (f_wbuf f) (f_rbuf f).
Definition fflush : wop framed := fun f => Ok (framed_flush None f).

(** Only complete frames to be read. *)
Definition whole (f : framed) (C : bytes) : Prop :=
  exists buf ps, rd_inv f buf ps [] /\ C = buf ++ concat ps.
Lemma whole_delivers : forall intw, 32 <= intw -> delivers (framed_read intw) whole.
Proof.
  intros intw W f C n (buf & ps & I & ->) N.
  pose proof (framed_read_step intw n f buf ps [] W N I) as H.
  destruct (buf ++ concat ps) as [|c l].
  - destruct H as (f' & -> & I'). eexists _, f'. split; [reflexivity|]. exists [], []. auto.
  - destruct H as (d & f' & buf' & ps' & -> & D & L & E & I').
    exists d, (buf' ++ concat ps'), f'. repeat split; auto. exists buf', ps'. auto.
Qed.
Lemma whole_unread : forall f C, whole f C -> (length C <= framed_unread f)%nat.
Proof. intros f C (buf & ps & I & E). apply framed_unread_ok. exists buf, ps, []. auto. Qed.
Definition fsimo : framed -> wt -> Prop := wsim (framed_takes (MkWt [] [])).
Definition fsimf (f : framed) (w : wt) : Prop :=
  w_sched w = [] /\ b_ok (f_wbuf f) /\ bBytes (f_wbuf f) = [] /\ f_w f = MkWt (frame (w_out w)) [].
Definition fclean (f : framed) (w : wt) : Prop := w = MkWt [] [] /\ framed_takes (MkWt [] []) f [].
Lemma fflush_sim : forall f w, fsimo f w -> hsame false fsimf (fflush f) (nop w).
Proof.
  intros f w (S0 & K & B & Ww). unfold fflush, nop.
  destruct (framed_flush_ok f K) as (f' & F & S1); [rewrite Ww; reflexivity|]. rewrite F.
  destruct (framed_flush_spec _ _ _ _ K F) as (K1 & _ & _ & Q). destruct (Q eq_refl) as [Q1 Q2].
  apply hsame_ok. split; [exact S0|]. split; [exact K1|]. split; [exact Q2|].
  rewrite Ww, B in Q1. cbn in Q1. destruct (f_w f') as [o sc]. cbn in *. subst. reflexivity.
Qed.
Definition pieces (cs : list bytes) (b : bytes) : Prop := concat cs = b /\ Forall (fun c => c <> []) cs.
Lemma fed_content : forall r cs, content (r ++ map (fun c => (c, None)) cs) = content r ++ concat cs.
Proof.
  intros r cs. unfold content. rewrite map_app, concat_app, map_map. cbn. rewrite map_id. reflexivity.
Qed.
Lemma fed_benign : forall r cs, benign r -> Forall (fun c => c <> []) cs ->
  benign (r ++ map (fun c => (c, None)) cs).
Proof.
  intros r cs B F. unfold benign. apply Forall_app. split; [exact B|]. rewrite Forall_map.
  eapply Forall_impl; [|exact F]. intros c Hc. split; [exact Hc|reflexivity].
Qed.
Lemma ffeed_sim : forall f r o cs1 cs2, rsim whole f r -> payload_ok o -> pieces cs1 (frame o) -> pieces cs2 o ->
  rsim whole (ffeed f cs1) (r ++ map (fun c => (c, None)) cs2).
Proof.
  intros f r o cs1 cs2 (B & buf & ps & (K & Bu & Br & X & P & C) & E) Po [C1 F1] [C2 F2].
  split; [apply fed_benign; assumption|]. exists buf, (ps ++ [o]). split.
  - unfold rd_inv, ffeed. cbn [f_rbuf f_r]. split; [exact K|]. split; [exact Bu|].
    split; [apply fed_benign; assumption|]. split.
    + rewrite fed_content, X, C1, map_app, concat_app. cbn [map concat]. rewrite !app_nil_r. reflexivity.
    + split; [apply Forall_app; auto|exact C].
  - rewrite fed_content, E, C2, concat_app. cbn. rewrite app_nil_r, app_assoc. reflexivity.
Qed.
Lemma fdrain_clean : forall f w, fsimf f w -> fclean (snd (fdrain f)) (MkWt [] []).
Proof. intros f w (_ & K & B & _). split; [reflexivity|]. split; [exact K|]. split; [exact B|reflexivity]. Qed.
Lemma fclean_sim : forall f w, fclean f w -> fsimo f w.
Proof. intros f w [-> T]. split; [reflexivity|exact T]. Qed.
