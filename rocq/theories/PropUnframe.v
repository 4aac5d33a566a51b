(** C121: a framed input, whatever it is, is read as the plain input of its frames; C120 over frames. *)
From Coq Require Import ZArith List Bool Lia String.
From Coq Require Import ZifyBool ZifyNat.
From Verif Require Import Base Arith Errors Transport TransportProofs Proto Values WfDec Access Skip SkipProofs ReadProg F64 TField GoVal
  Names Compare TList TSet TMap Gen GenSpec GenProofs GenInst GenRound Buffer Framed FramedProofs
  BinaryProofs BinarySpec Binary BinaryMsg PropBinary Over Het OverSim OverInst OverRpc Unframe UnframeCompact Compact
  AppExc AppExcProofs PropRpc Rpc RpcProofs PropService Serve ServeProofs PropServe PropCalm PropAnswer Tutorial PropTutorial PropContainers.
Import ListNotations.
Local Open Scope list_scope.
Local Notation length := List.length.
Local Notation concat := List.concat.
Open Scope Z_scope.

(** ** What the frames are *)

(** Frames with these payloads, and then possibly a part of one, in any pieces: each payload comes in one Read; an empty
    one, and the part at the end, as an error. *)
Definition payload_event (p : bytes) : event := match p with [] => ([], Some EEof) | _ => (p, None) end.
Lemma next_frame_whole : forall intw p rest r, 32 <= intw -> benign r -> Z.of_nat (length p) < 2 ^ 31 -> content r = frame p ++ rest ->
  exists r', next_frame intw r = (match p with [] => None | _ => Some p end, r') /\ benign r' /\ content r' = rest.
Proof.
  intros intw p rest r W B L X. unfold frame in X. rewrite <- app_assoc in X. unfold next_frame.
  destruct (read_all_exact _ _ _ B X) as (r1 & R1 & B1 & X1). rewrite be_length in R1. rewrite R1.
  rewrite (frame_hdr p) by lia. rewrite wraps_len by lia. destruct p as [|c p].
  - cbn [length Z.of_nat]. cbn. exists r1. auto.
  - set (q := c :: p) in *. replace (Z.of_nat (length q) <=? 0) with false by (cbn [q length]; lia). rewrite Nat2Z.id.
    destruct (read_all_exact _ _ _ B1 X1) as (r2 & R2 & B2 & X2). rewrite R2. eauto.
Qed.
Lemma benign_nil : forall r, benign r -> content r = [] -> r = [].
Proof.
  intros [|[bs e] r] B X; [reflexivity|]. exfalso. apply Forall_inv in B. destruct B as [B _]. cbn in *.
  destruct bs; [congruence|discriminate].
Qed.
Theorem C121_frames : forall intw ps tail r, 32 <= intw -> benign r -> Forall (fun p => Z.of_nat (length p) < 2 ^ 31) ps -> cut tail ->
  content r = concat (map frame ps) ++ tail ->
  unframed intw r = map payload_event ps ++ match tail with [] => [] | _ => [([], Some EEof)] end.
Proof.
  intros intw ps tail r W B Ps Ct X. revert r B X. induction Ps as [|p ps Hp Ps IH]; intros r B X; cbn [map concat app] in X |- *.
  - destruct tail as [|c tail]; [rewrite (benign_nil r B X); reflexivity|].
    assert (Nr : r <> []) by (intros ->; discriminate). rewrite <- X in Ct.
    destruct (readFrame_cut intw (MkFramed (MkWt [] []) r (bNew []) (bNew [])) W B Ct) as (r' & E & B' & X').
    destruct (next_frame intw r) as [o r1] eqn:En.
    destruct (readFrame_next intw (MkFramed (MkWt [] []) r (bNew []) (bNew [])) o r1 En) as [E1 E2]. rewrite E in E1, E2. cbn in E1, E2. subst r1.
    rewrite (unframed_step _ _ _ _ Nr En), (benign_nil r' B' X').
    destruct o as [b|]; [|reflexivity]. destruct (next_frame_work _ _ _ _ En) as (_ & _ & Ne). specialize (Ne b eq_refl).
    destruct b; [congruence|discriminate].
  - rewrite <- app_assoc in X. destruct (next_frame_whole intw p _ r W B Hp X) as (r' & En & B' & X').
    assert (Nr : r <> []). { intros ->. apply (f_equal (@length Z)) in X. unfold frame in X. rewrite !app_length, be_length in X. cbn in X. lia. }
    rewrite (unframed_step _ _ _ _ Nr En), (IH r' B' X'). destruct p; reflexivity.
Qed.
Print Assumptions C121_frames.

(** No more bytes come out than go in, unless a Read returned neither data nor an error (then ReadAll stops short of its
    buffer without an error, and the frame is filled up with zeros). *)
Definition busy (r : rt) : Prop := Forall (fun ev : event => fst ev <> [] \/ snd ev <> None) r.
Lemma read_all_loop_busy : forall r n got e c d e' r', read_all_loop n got e r = (c, d, e', r') -> busy r ->
  busy r' /\ (e' = None -> length d = n).
Proof.
  induction r as [|[bs e0] r IH]; intros n got e c d e' r' E B.
  - destruct n; cbn in E; injection E as <- <- <- <-; (split; [constructor|]); [reflexivity|discriminate].
  - destruct n as [|n]; [cbn in E; injection E as <- <- <- <-; split; [exact B|reflexivity]|].
    cbn [read_all_loop] in E. inversion B as [|? ? B0 Br]; subst. cbn [fst snd] in B0. destruct bs as [|b bs].
    + injection E as <- <- <- <-. split; [exact Br|]. destruct B0 as [B0|B0]; [congruence|]. destruct e0; [discriminate|congruence].
    + destruct (S n <? length (b :: bs))%nat eqn:L.
      * pinj E; subst. split; [|intros _; rewrite firstn_length; lia]. constructor; [|exact Br]. left. cbn [fst]. intro N.
        apply (f_equal (@length Z)) in N. rewrite skipn_length in N. cbn [length] in *. lia.
      * destruct (read_all_loop (S n - length (b :: bs)) (got + length (b :: bs)) e0 r) as [[[c1 d1] e1] r1] eqn:R.
        pinj E; subst. destruct (IH _ _ _ _ _ _ _ R Br) as [B1 L1]. split; [exact B1|]. intro N. rewrite app_length, (L1 N). lia.
Qed.
Lemma read_all_busy : forall r n c b e r', read_all n r = (c, b, e, r') -> busy r ->
  busy r' /\ (length (content r') <= length (content r))%nat /\ (e = None -> (length b + length (content r') = length (content r))%nat).
Proof.
  intros r n c b e r' E B. unfold read_all in E. destruct (read_all_loop n 0 None r) as [[[c1 d1] e1] r1] eqn:R.
  injection E as <- <- <- <-. destruct (read_all_loop_busy _ _ _ _ _ _ _ _ R B) as [B1 L1].
  destruct (read_all_loop_any _ _ _ _ _ _ _ _ R) as (C & Ld & _). rewrite C, app_length. split; [exact B1|]. split; [lia|].
  intro N. specialize (L1 N). rewrite pad_exact by exact L1. reflexivity.
Qed.
Lemma next_frame_busy : forall intw r o r', next_frame intw r = (o, r') -> busy r ->
  busy r' /\ (match o with Some b => length b | None => 0 end + length (content r') <= length (content r))%nat.
Proof.
  intros intw r o r' E B. unfold next_frame in E. destruct (read_all 4 r) as [[[c1 hd] e1] r1] eqn:E1.
  destruct (read_all_busy _ _ _ _ _ _ E1 B) as (B1 & L1 & _). destruct e1; [injection E as <- <-; auto|].
  destruct (wraps intw (be_uint32 hd) <=? 0); [injection E as <- <-; auto|].
  destruct (read_all (Z.to_nat (wraps intw (be_uint32 hd))) r1) as [[[c2 bd] e2] r2] eqn:E2.
  destruct (read_all_busy _ _ _ _ _ _ E2 B1) as (B2 & L2 & X2). injection E as <- <-. split; [exact B2|].
  destruct e2; [cbn; lia|]. specialize (X2 eq_refl). lia.
Qed.
Theorem C121_no_more : forall intw r, busy r ->
  (length (content (unframed intw r)) <= length (content r))%nat /\
  Forall (fun ev => fst ev = [] /\ snd ev = Some EEof \/ fst ev <> [] /\ snd ev = None) (unframed intw r).
Proof.
  intros intw r. unfold unframed. generalize (rt_work r). intro n. revert r. induction n as [|n IH]; intros r B; cbn [unframe].
  - split; [cbn; lia|constructor].
  - destruct r as [|ev r]; [split; [cbn; lia|constructor]|].
    destruct (next_frame intw (ev :: r)) as [o r'] eqn:E. destruct (next_frame_busy _ _ _ _ E B) as [B' L].
    destruct (next_frame_work _ _ _ _ E) as (_ & _ & Ne).
    destruct (IH r' B') as [L' F]. split.
    + change (content (frame_event o :: unframe intw n r')) with (fst (frame_event o) ++ content (unframe intw n r')). rewrite app_length. destruct o; cbn [frame_event fst length] in *; lia.
    + constructor; [|exact F]. destruct o as [b|]; cbn; [right; auto|left; auto].
Qed.
Print Assumptions C121_no_more.
(** With such a Read the zeros are as many as the frame announces. *)
Theorem C121_no_more_refuted : forall n, 0 < n < 2 ^ 31 -> exists r, length (content r) = 4%nat /\
  unframed 64 r = [(repeat 0 (Z.to_nat n), None)].
Proof.
  intros n Hn. set (p := repeat 0 (Z.to_nat n)). exists [(be 4 n, None); ([], None)]. split; [cbn; reflexivity|].
  assert (E : next_frame 64 [(be 4 n, None); ([], None)] = (Some p, [])).
  { unfold next_frame. change (read_all 4 [(be 4 n, None); ([], None)]) with (4, be 4 n, @None err, [([] : bytes, @None err)]).
    cbv iota beta. assert (Lp : Z.of_nat (length p) = n) by (unfold p; rewrite repeat_length; lia).
    assert (Sz : wraps 64 (be_uint32 (be 4 n)) = n) by (rewrite <- Lp at 1; rewrite frame_hdr, wraps_len by lia; exact Lp).
    rewrite Sz. replace (n <=? 0) with false by lia.
    unfold read_all. destruct (Z.to_nat n) as [|k] eqn:K; [lia|]. cbn [read_all_loop]. unfold pad.
    cbn [app length]. rewrite Nat.sub_0_r. reflexivity. }
  rewrite (unframed_step 64 [(be 4 n, None); ([], None)] (Some p) [] ltac:(discriminate) E). reflexivity.
Qed.
Print Assumptions C121_no_more_refuted.

(** ** Reading them *)
Lemma unframe_binaryR : forall intw strict, rrel false (fsim intw) (o_binaryR (read_all_over (framed_read intw)) strict) (binaryR strict).
Proof. intros. apply ex_binaryR. intros n s r S. apply fsim_read_all, S. Qed.

(** The reader generated for any type, over either protocol over TFramedTransport. *)
Definition same_result {A S1 S2} (sim : S1 -> S2 -> Prop) (a : outcome (A * S1)) (b : outcome (A * S2)) : Prop :=
  match a, b with
  | Ok (v, s), Ok (v', r') => v = v' /\ sim s r'
  | Panic, Panic => True
  | OutOfFuel, OutOfFuel => True
  | _, _ => False
  end.
Theorem C121_read : forall intw x M cf f t w r,
  (forall strict, same_result (fsim intw)
     (gread (o_binaryR (read_all_over (framed_read intw)) strict) x M cf f t (NewTFramedTransport w r))
     (gread (binaryR strict) x M cf f t (unframed intw r))) /\
  same_result (fun s r => fsim intw (fst s) (fst r) /\ snd s = snd r)
     (gread (o_compactR (read_all_over (framed_read intw)) framed_unread) x M cf f t (NewTFramedTransport w r, cinit))
     (gread compactR x M cf f t (unframed intw r, cinit)).
Proof.
  intros intw x M cf f t w r. split; [intro strict|].
  - pose proof (proj1 (hgread false (fsim intw) _ _ (unframe_binaryR intw strict) x M cf f) t _ _ (fsim_new intw w r)) as Q.
    destruct (gread (o_binaryR (read_all_over (framed_read intw)) strict) x M cf f t (NewTFramedTransport w r)) as [[v s]| |],
      (gread (binaryR strict) x M cf f t (unframed intw r)) as [[v' r']| |]; cbn in Q; try exact Q; try discriminate Q.
  - pose proof (proj1 (hgread false (fsimc intw) _ _ (unframe_compactR intw) x M cf f) t (NewTFramedTransport w r, cinit) (unframed intw r, cinit)
      (conj (fsim_new intw w r) eq_refl)) as Q.
    destruct (gread (o_compactR (read_all_over (framed_read intw)) framed_unread) x M cf f t (NewTFramedTransport w r, cinit)) as [[v s]| |],
      (gread compactR x M cf f t (unframed intw r, cinit)) as [[v' r']| |]; cbn in Q; try exact Q; try discriminate Q.
Qed.
Print Assumptions C121_read.

Lemma loop_same : forall SR1 SR2 SW H (sim : SR1 -> SR2 -> Prop) (R1 : rproto SR1) (R2 : rproto SR2) (W : wproto SW) flush x M cf fuel errtext
    (handle : H -> bytes -> list any -> (list (Z * any) * option bytes) * H) fs stopped, rrel false sim R1 R2 ->
  forall rounds n h s1 s2 so, sim s1 s2 ->
  match serve_loop x M cf fuel errtext handle fs stopped R1 W flush rounds n h s1 so,
        serve_loop x M cf fuel errtext handle fs stopped R2 W flush rounds n h s2 so with
  | Ok (h1, _, o1), Ok (h2, _, o2) => h1 = h2 /\ o1 = o2
  | Panic, Panic => True
  | OutOfFuel, OutOfFuel => True
  | _, _ => False
  end.
Proof.
  intros SR1 SR2 SW H sim R1 R2 W flush x M cf fuel errtext handle fs stopped RR. induction rounds as [|rounds IH]; intros n h s1 s2 so S; [exact I|].
  cbn [serve_loop].
  pose proof (hprocess false sim eq eq R1 R2 W W flush flush RR (wrel_refl _ W) ltac:(intros ? ? ->; apply hsame_refl) x M cf fuel errtext handle
    fs h s1 s2 so so S eq_refl) as Q.
  destruct (process R1 W flush x M cf fuel errtext handle fs h s1 so) as [p1| |],
    (process R2 W flush x M cf fuel errtext handle fs h s2 so) as [p2| |]; cbn in Q; try discriminate Q; try contradiction; try exact I.
  destruct Q as (Q1 & Q2 & Q3 & Q4 & Q5). assert (Qo : p_out p1 = p_out p2) by (destruct Q5 as [[-> ->]|Q5]; auto).
  cbn [obind]. replace (ends (stopped n) p1) with (ends (stopped n) p2) by (unfold ends; rewrite Q1, Q2; reflexivity).
  destruct (ends (stopped n) p2); [auto|]. rewrite Q3, Qo. apply IH, Q4.
Qed.
(** A server with framed input, on any input at all, does what a server with plain input does on the frames: of any
    service, over either protocol, whatever its handler does, and whatever becomes of the output. *)
Theorem C121_server : forall H intw ot pf op x M cf fuel errtext
    (handle : H -> bytes -> list any -> (list (Z * any) * option bytes) * H) fs stopped rounds h r,
  processRequest x M cf fuel errtext handle fs stopped intw (MkTServer TFFramed ot pf op) rounds h r =
  processRequest x M cf fuel errtext handle fs stopped intw (MkTServer TFPlain ot pf op) rounds h (unframed intw r).
Proof.
  intros. unfold processRequest. destruct pf as [ir iw|]; cbn [sv_in_t sv_out_t sv_in_p sv_out_p GetReader rd_proto rd_new rd_st];
    set (W := GetWriter ot op).
  - pose proof (loop_same _ _ _ _ (fsim intw) _ _ (wr_proto W) (wr_flush W) x M cf fuel errtext handle fs stopped
      (unframe_binaryR intw ir) rounds 0%nat h (new_framed_in r) (unframed intw r) (wr_new W (MkWt [] [])) eq_refl) as Q.
    destruct (serve_loop x M cf fuel errtext handle fs stopped (o_binaryR (read_all_over (framed_read intw)) ir) (wr_proto W) (wr_flush W)
      rounds 0 h (new_framed_in r) (wr_new W (MkWt [] []))) as [[[h1 s1] o1]| |],
     (serve_loop x M cf fuel errtext handle fs stopped (binaryR ir) (wr_proto W) (wr_flush W)
      rounds 0 h (unframed intw r) (wr_new W (MkWt [] []))) as [[[h2 s2] o2]| |]; cbn [obind]; try contradiction; try reflexivity.
    destruct Q as [-> ->]. reflexivity.
  - pose proof (loop_same _ _ _ _ (fsimc intw) _ _ (wr_proto W) (wr_flush W) x M cf fuel errtext handle fs stopped
      (unframe_compactR intw) rounds 0%nat h (new_framed_in r, cinit) (unframed intw r, cinit) (wr_new W (MkWt [] [])) (conj eq_refl eq_refl)) as Q.
    destruct (serve_loop x M cf fuel errtext handle fs stopped (o_compactR (read_all_over (framed_read intw)) framed_unread) (wr_proto W) (wr_flush W)
      rounds 0 h (new_framed_in r, cinit) (wr_new W (MkWt [] []))) as [[[h1 s1] o1]| |],
     (serve_loop x M cf fuel errtext handle fs stopped compactR (wr_proto W) (wr_flush W)
      rounds 0 h (unframed intw r, cinit) (wr_new W (MkWt [] []))) as [[[h2 s2] o2]| |]; cbn [obind]; try contradiction; try reflexivity.
    destruct Q as [-> ->]. reflexivity.
Qed.
Print Assumptions C121_server.

(** ** C120 with framed input, output or both *)
Section FramedWriter.
Context {H : Type}.
Variable strictW : bool.
Variable x : ext.
Variable M : Z.
Variable fuel : nat.
Variable handle : H -> bytes -> list any -> (list (Z * any) * option bytes) * H.
Variable fs : list func.
Hypothesis Fok : forall f, In f fs -> func_ok f.
Hypothesis Rok : handled x fuel handle fs.
Notation W := (o_binaryW framed_wr (copy_over framed_wr) strictW).
Definition okf (f : framed) : Prop := exists o, framed_takes (MkWt o []) f [].
Lemma fr_rel : forall o, wrel false (wsim (framed_takes (MkWt o []))) W (binaryW strictW).
Proof.
  intro o. pose proof (framed_accepts false (MkWt o [])) as A.
  apply (over_binaryW false framed_wr (copy_over framed_wr) _ A (copy_over_accepts _ _ _ _ A) strictW).
Qed.
Lemma fexc_ok : forall name seq e so, okf so -> exists so', write_exception W fflush name seq e so = Ok so' /\ okf so'.
Proof.
  intros name seq e so (o & Ho).
  pose proof (hwrite_exception false (wsim (framed_takes (MkWt o []))) (flushed o) W (binaryW strictW) fflush nop (fr_rel o) (flushed_sim o)
    name seq e so (MkWt [] []) (conj eq_refl Ho)) as Q.
  destruct (bexc_ok strictW name seq e (MkWt [] []) (ex_intro _ [] eq_refl)) as (w' & E & o' & ->). rewrite E in Q.
  destruct (write_exception W fflush name seq e so) as [so'| |]; cbn in Q; try contradiction; [|discriminate Q].
  exists so'. split; [reflexivity|]. destruct Q as [_ Q]. eexists. exact Q.
Qed.
Lemma fres_ok : forall f h vals attrs h' seq so, In f fs -> handle h (fn_name f) vals = ((attrs, None), h') -> okf so ->
  exists o1 o2 o3 o4, wMessageBegin W (fn_name f) REPLY seq so = Ok (None, o1) /\
    gwrite_result W x fuel (result_name f) (result_members f) (if fn_oneway f then init_attrs (result_members f) else attrs) o1 =
      Ok (None, o2) /\
    wMessageEnd W o2 = Ok (None, o3) /\ fflush o3 = Ok (None, o4) /\ okf o4.
Proof.
  intros f h vals attrs h' seq so Hf Eh (o & Ho).
  destruct (bres_ok strictW x M fuel handle fs Fok Rok f h vals attrs h' seq (MkWt [] []) Hf Eh (ex_intro _ [] eq_refl))
    as (p1 & p2 & p3 & p4 & E1 & E2 & E3 & E4 & _).
  pose proof (pMessageBegin _ _ _ _ (fr_rel o) (fn_name f) REPLY seq so (MkWt [] []) (conj eq_refl Ho)) as Q1. rewrite E1 in Q1.
  destruct (wMessageBegin W (fn_name f) REPLY seq so) as [[e1 o1]| |] eqn:F1; cbn in Q1; try contradiction; [|discriminate Q1]. destruct Q1 as [-> S1].
  set (av := if fn_oneway f then init_attrs (result_members f) else attrs) in *.
  pose proof (hgwrite_result false (wsim (framed_takes (MkWt o []))) W (binaryW strictW) (fr_rel o) x fuel (result_name f) (result_members f) av o1 p1 S1) as Q2.
  rewrite E2 in Q2.
  destruct (gwrite_result W x fuel (result_name f) (result_members f) av o1) as [[e2 o2]| |] eqn:F2; cbn in Q2; try contradiction; [|discriminate Q2].
  destruct Q2 as [-> S2].
  pose proof (pMessageEnd _ _ _ _ (fr_rel o) o2 p2 S2) as Q3. rewrite E3 in Q3.
  destruct (wMessageEnd W o2) as [[e3 o3]| |] eqn:F3; cbn in Q3; try contradiction; [|discriminate Q3]. destruct Q3 as [-> S3].
  pose proof (flushed_sim o o3 p3 S3) as Q4. rewrite E4 in Q4.
  destruct (fflush o3) as [[e4 o4]| |] eqn:E5; cbn in Q4; try contradiction; [|discriminate Q4]. destruct Q4 as [-> [_ Q4]].
  exists o1, o2, o3, o4. split; [first [exact F1|reflexivity]|]. split; [exact F2|]. split; [exact F3|]. split; [exact E5|]. eexists. exact Q4.
Qed.
End FramedWriter.

(** A connection to a server of a service without containers and binary in its arguments comes to an end on every input,
    plain or framed on either side; what it has sent is a sequence of answers. *)
Theorem C120_framed : forall H intw it ot ir iw sr sw x M cf fuel errtext
    (handle : H -> bytes -> list any -> (list (Z * any) * option bytes) * H) fs stopped rounds h (r : rt),
  (forall f, In f fs -> func_ok f) -> (forall f m, In f fs -> In m (fn_args f) -> plain (m_ty m)) ->
  (forall f, In f fs -> fn_name f <> []) -> handled x fuel handle fs -> (it = TFFramed -> busy r) ->
  (2 * length (content r) + 2 <= fuel)%nat -> (length (content r) < rounds)%nat ->
  exists h' b out,
    processRequest x M cf fuel errtext handle fs stopped intw (MkTServer it ot (PFBinary ir iw) (PFBinary sr sw)) rounds h r =
      Ok (h', b) /\
    only_answers x errtext handle fs h out h' /\ b = concat (map (fun a => carry ot (told (PFBinary sr sw) a)) out).
Proof.
  intros H intw it ot ir iw sr sw x M cf fuel errtext handle fs stopped rounds h r Fok Pl Nm Rok Bu Lf Lr.
  assert (G : forall r, (2 * length (content r) + 2 <= fuel)%nat -> (length (content r) < rounds)%nat -> exists h' b,
    processRequest x M cf fuel errtext handle fs stopped intw (MkTServer TFPlain ot (PFBinary ir iw) (PFBinary sr sw)) rounds h r = Ok (h', b)).
  { clear r Bu Lf Lr. intros r Lf Lr. destruct ot.
    - destruct (C120_server H intw ir iw sr sw x M cf fuel errtext handle fs stopped rounds h r Fok Pl Nm Rok Lf Lr) as (h' & b & _ & E & _). eauto.
    - unfold processRequest. cbn [sv_in_t sv_out_t sv_in_p sv_out_p GetReader GetWriter rd_proto rd_new wr_proto wr_flush wr_new rd_st wr_st].
      destruct (pt_loop _ _ _ _ (returning_binary ir) (o_binaryW framed_wr (copy_over framed_wr) sw) fflush x M cf fuel errtext handle fs okf
        (fexc_ok sw) (fres_ok sw x M fuel handle fs Fok Rok) (fun f m Hf Hm => plain_safe _ (Pl f m Hf Hm)) Nm
        stopped rounds 0%nat h r (new_framed_out (MkWt [] [])) I) as (h' & si' & so' & E); [|exact Lf|exact Lr|].
      + exists []. split; [apply bNew_ok|split; reflexivity].
      + rewrite E. cbn [obind]. eauto. }
  assert (P : exists h' b, processRequest x M cf fuel errtext handle fs stopped intw (MkTServer it ot (PFBinary ir iw) (PFBinary sr sw)) rounds h r = Ok (h', b)).
  { destruct it; [apply G; assumption|]. rewrite C121_server. destruct (C121_no_more intw r (Bu eq_refl)) as [Ln _]. apply G; lia. }
  destruct P as (h' & b & P). exists h', b.
  destruct (C104_only_answers_partial H intw (MkTServer it ot (PFBinary ir iw) (PFBinary sr sw)) sr sw x M cf fuel
    errtext handle fs stopped rounds h r h' b eq_refl Fok Rok P) as (out & A & B).
  exists out. split; [exact P|]. split; [exact A|]. exact B.
Qed.
Print Assumptions C120_framed.

(** Two calls of the tutorial's service in frames of their own, with an empty frame between them: the second is not answered. *)
Example C121_case :
  let call i := bmsg true (lit "add") CALL i ++ sb_val (VStruct [(1, VI32 2); (2, VI32 3)]) in
  let r := [(frame (call 7), None); (frame [], None); (frame (call 8), None)] in
  benign r /\ busy r /\ content r = concat (map frame [call 7; []; call 8]) ++ [] /\
  unframed 32 r = [(call 7, None); ([], Some EEof); (call 8, None)] /\
  exists p', processRequest ext0 64 5 400 (fun _ => lit "err") safe_handle calculator (fun _ => false) 32
      (MkTServer TFFramed TFFramed (PFBinary true true) (PFBinary true true)) 100 [] r =
    Ok (p', frame (told (PFBinary true true) (MkAnswer (lit "add") REPLY 7 [(0, VI32 5)]))).
Proof.
  cbn zeta. split; [repeat constructor; discriminate|]. split; [repeat (apply Forall_cons; [left; discriminate|]); apply Forall_nil|].
  split; [vm_compute; reflexivity|]. split; [vm_compute; reflexivity|]. eexists. vm_compute. reflexivity.
Qed.
