(** Every message of a conversation that is served as RpcProofs.v says is one of a given kind: what [fits] of
    OverRpc.v asks for. *)
From Coq Require Import ZArith List Bool Lia.
From Verif Require Import Base Errors Transport Proto Arith Values Binary Compact.
From Verif Require Import TField GoVal Compare TMap Gen AppExc Rpc OverRpc.
Import ListNotations.

Lemma fits_by : forall (SR SW H : Type) (R : rproto SR) (W : wproto SW) flush freshR freshW x M cf fuel errtext
    (handle : H -> bytes -> list any -> (list (Z * any) * option bytes) * H) fs drain feed cut (ok : bytes -> Prop)
    (Inv : @pair SR SW H -> Prop) (good : func -> list any -> Prop),
  (forall n f args st, good f args -> Inv st ->
    (exists c1 w1 p, send W flush freshW x fuel f args (pr_c st) (pr_w st) = Ok (None, c1, w1) /\
      ok (fst (drain (o_own w1))) /\
      process R W flush x M cf fuel errtext handle fs (pr_h st)
        (feed (pr_in st) (cut (2 * n)%nat (fst (drain (o_own w1))))) (pr_out st) = Ok p /\
      ok (fst (drain (p_out p)))) /\
    exists r st', call R W flush freshR freshW x M cf fuel errtext handle fs drain feed cut n f args st = Ok (r, st') /\ Inv st') ->
  forall l n st, (forall f args, In (f, args) l -> good f args) -> Inv st ->
  fits R W flush freshR freshW x M cf fuel errtext handle fs drain feed cut ok n l st.
Proof.
  intros SR SW H R W flush freshR freshW x M cf fuel errtext handle fs drain feed cut ok Inv good Step.
  induction l as [|[f args] l IH]; intros n st G I; cbn [fits]; [exact Logic.I|].
  destruct (Step n f args st (G f args (or_introl eq_refl)) I) as [(c1 & w1 & p & E1 & O1 & P & O2) (r & st' & E & I')].
  split.
  - intros e c2 w2 E2. rewrite E1 in E2. injection E2 as <- <- <-. split; [reflexivity|]. split; [exact O1|].
    intros p2 P2. rewrite P in P2. injection P2 as <-. exact O2.
  - intros r2 st2 E2. rewrite E in E2. injection E2 as <- <-. apply IH; [|exact I']. intros g a Hg. apply G. right. exact Hg.
Qed.
