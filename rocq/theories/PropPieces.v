(** C27: what Reads over frames give, piece by piece. *)
From Coq Require Import ZArith List Bool Lia.
From Coq Require Import ZifyBool ZifyNat.
From Verif Require Import Base Errors Arith Transport TransportProofs Buffer Framed FramedProofs PropFramed WfDec.
Import ListNotations.
Open Scope Z_scope.

(** ** Specification *)

(** The results of Reads of the sizes [ns] from a transport. *)
Fixpoint plain_reads (ns : list nat) (r : rt) : list (bytes * option err) :=
  match ns with
  | [] => []
  | n :: ns' => let '(d, e, r') := tread n r in (d, e) :: plain_reads ns' r'
  end.
(** A transport that gives every frame as one piece, and after the last one END_OF_FILE, [k] times. *)
Definition one_piece_each (frames : list bytes) (k : nat) : rt :=
  map (fun p => (p, None)) frames ++ repeat ([], Some (ETransport END_OF_FILE)) k.

(** ** Proofs *)
Lemma read_whole : forall intw n f buf ps tail, 32 <= intw -> (0 < n)%nat -> rd_inv f buf ps tail ->
  match (match buf with [] => ps | _ => buf :: ps end) with
  | [] => exists f', framed_read intw n f = ([], Some (ETransport END_OF_FILE), f') /\ rd_inv f' [] [] []
  | p :: ps' => exists f', framed_read intw n f = (firstn n p, None, f') /\ rd_inv f' (skipn n p) ps' tail
  end.
Proof.
  intros intw n f buf ps tail W N (K & Bu & B & X & P & C). unfold framed_read.
  rewrite bLen_bytes, Bu. destruct buf as [|b0 buf0] eqn:Eb; cbn [length app].
  - change (0 <? 0)%nat with false. cbn iota. destruct ps as [|p ps]; cbn [concat map app] in *.
    + rewrite <- X in C. destruct (readFrame_cut intw f W B C) as (r' & -> & B' & X').
      cbn [f_rbuf f_w f_r f_wbuf]. destruct (bRead_spec n _ K) as (rb & Kb & Bb & ->).
      rewrite Bu. rewrite firstn_nil. replace (n =? 0)%nat with false by lia. cbn [transport_exc_from_os typeid_int].
      eexists. split; [reflexivity|]. unfold rd_inv. cbn [f_rbuf f_r]. rewrite Bb, Bu, skipn_nil.
      repeat split; auto. apply cut_nil.
    + inversion P as [|? ? [P1 P2] Pr]; subst. rewrite <- app_assoc in X.
      assert (Lp : 0 < Z.of_nat (length p)) by (destruct p; [congruence|cbn [length]; lia]).
      destruct (readFrame_whole intw f p _ W B ltac:(lia) X) as (r' & -> & B' & X').
      cbn [f_rbuf f_w f_r f_wbuf].
      destruct (bRead_spec n (bNew p) (bNew_ok p)) as (rb & Kb & Bb & ->). rewrite bBytes_new in Bb |- *.
      eexists. split; [destruct p; [congruence|reflexivity]|]. unfold rd_inv. cbn [f_rbuf f_r]. auto 8.
  - replace (0 <? S (length buf0))%nat with true by lia. cbn iota.
    destruct (bRead_spec n _ K) as (rb & Kb & Bb & ->). rewrite Bu in Bb |- *.
    replace (0 <? length (firstn n (b0 :: buf0)))%nat with true by (destruct n; [lia|reflexivity]). cbn iota.
    eexists. split; [reflexivity|]. unfold rd_inv. cbn [f_rbuf f_r]. auto 8.
Qed.

Lemma pieces_read : forall intw ns f buf ps tail k, 32 <= intw -> Forall (fun n => 0 < n)%nat ns -> (length ns <= k)%nat -> rd_inv f buf ps tail ->
  fst (framed_reads intw ns f) = plain_reads ns (one_piece_each (match buf with [] => ps | _ => buf :: ps end) k).
Proof.
  induction ns as [|n ns IH]; intros f buf ps tail k W N Hk I; [reflexivity|].
  inversion N as [|? ? N1 N2]; subst. cbn [framed_reads length] in *.
  pose proof (read_whole intw n f buf ps tail W N1 I) as St.
  assert (Pp : Forall (fun p : bytes => p <> []) (match buf with [] => ps | _ => buf :: ps end)).
  { destruct I as (_ & _ & _ & _ & P & _).
    assert (Forall (fun p : bytes => p <> []) ps) by (eapply Forall_impl; [|exact P]; intros a [A _]; exact A).
    destruct buf; [assumption|constructor; [discriminate|assumption]]. }
  destruct (match buf with [] => ps | _ => buf :: ps end) as [|p q] eqn:E.
  - destruct k as [|k]; [lia|]. destruct St as (f' & -> & I'). specialize (IH f' _ _ _ k W N2 ltac:(lia) I'). cbn iota in IH.
    destruct (framed_reads intw ns f') as [l f2]. cbn [fst] in *. subst l.
    unfold one_piece_each. cbn [map app repeat plain_reads tread length]. destruct n; [lia|]. reflexivity.
  - destruct St as (f' & -> & I'). specialize (IH f' _ _ _ k W N2 ltac:(lia) I').
    destruct (framed_reads intw ns f') as [l f2]. cbn [fst] in *. subst l.
    unfold one_piece_each at 2. cbn [map app plain_reads tread]. inversion Pp as [|? ? P1 P2]; subst.
    destruct (Nat.ltb_spec n (length p)) as [L|L].
    + assert (S : skipn n p <> []) by (intros S; apply (f_equal (@length Z)) in S; rewrite skipn_length in S; cbn in S; unfold bytes in *; lia).
      destruct (skipn n p) as [|c s] eqn:Es; [congruence|]. reflexivity.
    + rewrite (skipn_all2 p) by exact L. rewrite firstn_all2 by exact L. reflexivity.
Qed.

(** ** C27 *)

(** Reads of any sizes over frames give exactly what they give over a transport on which every frame arrives as one piece,
    however the bytes of the frames arrive.  What is proved of a protocol over transports with one piece per message holds
    over frames. *)
Theorem C27_pieces : forall intw os r ns, 32 <= intw ->
  Forall payload_ok (fst (payloads [] (os ++ [FFlush]))) ->
  benign r -> content r = sent (os ++ [FFlush]) -> Forall (fun n => 0 < n)%nat ns ->
  fst (framed_reads intw ns (reader r)) = plain_reads ns (one_piece_each (fst (payloads [] (os ++ [FFlush]))) (length ns)).
Proof.
  intros intw os r ns W P B X N. rewrite sent_frames in X.
  apply (pieces_read intw ns (reader r) [] _ []); auto.
  apply reader_inv; auto; [rewrite app_nil_r; assumption|apply cut_nil].
Qed.
Print Assumptions C27_pieces.
Example C27_pieces_case :
  let os := [FWrite [1; 2]; FWrite [3]; FFlush; FWrite []; FWrite [4; 5; 6; 7]] in
  let r := [([0; 0], None); ([0; 3; 1; 2; 3; 0; 0], None); ([0; 4; 4; 5], None); ([6; 7], None)] in
  Forall payload_ok (fst (payloads [] (os ++ [FFlush]))) /\ benign r /\ content r = sent (os ++ [FFlush]) /\
  one_piece_each (fst (payloads [] (os ++ [FFlush]))) 1 = [([1; 2; 3], None); ([4; 5; 6; 7], None); ([], Some (ETransport END_OF_FILE))].
Proof.
  cbn zeta. split; [cbn; repeat constructor; (discriminate || (cbn; lia))|]. concrete.
Qed.
