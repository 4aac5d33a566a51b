(** Properties of generated clients and processors over the library's transports: C77. *)
From Coq Require Import ZArith List Bool Lia.
From Coq Require Import ZifyBool ZifyNat.
From Verif Require Import Base Errors Transport Proto Arith TransportProofs Binary Compact Buffer BufIO
  Framed FramedProofs MemBuffer IOStream Http Socket ReadProg WriteErr Over Het OverSim OverInst OverRpc.
From Verif Require Import TField GoVal Compare TMap Values Gen GenSpec AppExc AppExcProofs Rpc RpcProofs.
From Verif Require Import GenProofs GenInst GenRound Codec BinarySpec CompactSpec CompactStruct PropFramed PropGen PropRpc PropService PropOver.
Import ListNotations.
Open Scope Z_scope.

(** ** C77 *)

(** Results of Process over a transport and over a plain one: the same, the handler's state too,
    and either neither has written anything or the other side has got the reply. *)
Definition processed {SR1 SR2 T SW2 H} (tr : T -> Prop) (got : T -> bytes -> Prop) (out : SW2 -> bytes)
    (o1 : outcome (@pout SR1 T H)) (o2 : outcome (@pout SR2 SW2 H)) : Prop :=
  match o1, o2 with
  | Ok p1, Ok p2 => p_success p1 = p_success p2 /\ p_err p1 = p_err p2 /\ p_h p1 = p_h p2 /\
      ((tr (p_out p1) /\ out (p_out p2) = []) \/ got (p_out p1) (out (p_out p2)))
  | Panic, Panic | OutOfFuel, OutOfFuel => True
  | _, _ => False
  end.
Theorem C77_processor_binary : forall T rd un s C, incoming T rd un s C ->
  forall T' wr cp fl s0 got, outgoing T' wr cp fl s0 got ->
  forall H strict strictW x M cf fuel errtext
    (handle : H -> bytes -> list any -> (list (Z * any) * option bytes) * H) fs h r,
  benign r -> content r = C ->
  processed (fun t => t = s0) got w_out
    (process (o_binaryR (read_all_over rd) strict) (o_binaryW wr cp strictW) fl x M cf fuel errtext handle fs h s s0)
    (process (binaryR strict) (binaryW strictW) nop x M cf fuel errtext handle fs h r (MkWt [] [])).
Proof.
  intros T rd un s C HI T' wr cp fl s0 got HO H strict strictW x M cf fuel errtext handle fs h r B X.
  destruct (incoming_inv _ _ _ _ _ HI) as (inv & D & I & U).
  destruct (outgoing_inv _ _ _ _ _ _ HO) as (winv & A & WI & CP & FL).
  assert (E : rsim inv s r) by (split; [exact B|rewrite X; exact I]).
  assert (Ew : wsim winv s0 (MkWt [] [])) by (split; [reflexivity|exact WI]).
  pose proof (over_binaryR false rd inv D un U strict) as RR.
  pose proof (over_binaryW false wr cp winv A CP strictW) as WW.
  assert (FF : forall s1 s2, wsim winv s1 s2 -> hsame false (fun t w => got t (w_out w)) (fl s1) (nop s2)).
  { intros s1 s2 [_ Q]. destruct (FL _ _ Q) as (s' & -> & G). cbn. auto. }
  pose proof (hprocess false (rsim inv) (wsim winv) (fun t w => got t (w_out w)) _ _ _ _ fl nop RR WW FF
    x M cf fuel errtext handle fs h s r s0 (MkWt [] []) E Ew) as P.
  unfold processed. destruct (process (o_binaryR _ _) _ _ _ _ _ _ _ _ _ _ _ _) as [p1| |],
    (process (binaryR _) _ _ _ _ _ _ _ _ _ _ _ _) as [p2| |]; cbn in P; try contradiction; try discriminate; auto.
  destruct P as (P1 & P2 & P3 & _ & [[P4 P5]|P4]); (split; [exact P1|split; [exact P2|split; [exact P3|]]]).
  - left. rewrite P5. auto.
  - right. exact P4.
Qed.
Print Assumptions C77_processor_binary.
Theorem C77_processor_compact : forall T rd un s C, incoming T rd un s C ->
  forall T' wr cp fl s0 got, outgoing T' wr cp fl s0 got ->
  forall H x M cf fuel errtext
    (handle : H -> bytes -> list any -> (list (Z * any) * option bytes) * H) fs h r c c',
  benign r -> content r = C ->
  processed (fun t => t = (s0, c')) (fun t o => got (fst t) o) (fun w => w_out (fst w))
    (process (o_compactR (read_all_over rd) un) (o_compactW wr)
       (fun t => '(e, t') <- fl (fst t) ;; Ok (e, (t', snd t))) x M cf fuel errtext handle fs h (s, c) (s0, c'))
    (process compactR compactW nop x M cf fuel errtext handle fs h (r, c) (MkWt [] [], c')).
Proof.
  intros T rd un s C HI T' wr cp fl s0 got HO H x M cf fuel errtext handle fs h r c c' B X.
  destruct (incoming_inv _ _ _ _ _ HI) as (inv & D & I & U).
  destruct (outgoing_inv _ _ _ _ _ _ HO) as (winv & A & WI & CP & FL).
  assert (E : rsimc inv (s, c) (r, c)) by (split; [split; [exact B|cbn [fst]; rewrite X; exact I]|reflexivity]).
  assert (Ew : wsimc winv (s0, c') (MkWt [] [], c')) by (split; [split; [reflexivity|exact WI]|reflexivity]).
  pose proof (over_compactR false rd inv D un U) as RR.
  pose proof (over_compactW false false wr winv A) as WW.
  assert (FF : forall s1 s2, wsimc winv s1 s2 -> hsame false (fun t w => got (fst t) (w_out (fst w)))
    ('(e, t') <- fl (fst s1) ;; Ok (e, (t', snd s1))) (nop s2)).
  { intros s1 s2 [[_ Q] _]. destruct (FL _ _ Q) as (s' & -> & G). cbn. auto. }
  pose proof (hprocess false (rsimc inv) (wsimc winv) (fun t w => got (fst t) (w_out (fst w))) _ _ _ _ _ nop RR WW FF
    x M cf fuel errtext handle fs h (s, c) (r, c) (s0, c') (MkWt [] [], c') E Ew) as P.
  unfold processed. destruct (process (o_compactR _ _) _ _ _ _ _ _ _ _ _ _ _ _) as [p1| |],
    (process compactR _ _ _ _ _ _ _ _ _ _ _ _) as [p2| |]; cbn in P; try contradiction; try discriminate; auto.
  destruct P as (P1 & P2 & P3 & _ & [[P4 P5]|P4]); (split; [exact P1|split; [exact P2|split; [exact P3|]]]).
  - left. split; [exact P4|exact (f_equal (fun w => w_out (fst w)) P5)].
  - right. exact P4.
Qed.
Print Assumptions C77_processor_compact.

(** *** A client and a processor exchanging frames *)
(** The two ends before the first call. *)
Definition fnew : framed := NewTFramedTransport (MkWt [] []) [].
Definition fstart {H} (h : H) : @pair framed framed H :=
  MkPair new_client_factory (MkWorld fnew fnew fnew fnew) h fnew fnew.
(** Messages a frame can hold. *)
Definition frameable (o : bytes) : Prop := 1 <= Z.of_nat (length o) < 2 ^ 31.
Lemma frameable_payload : forall o, frameable o <-> payload_ok o.
Proof.
  intro o. unfold frameable, payload_ok. split; intros [A B]; split; try assumption.
  - intro Z0. subst o. cbn in A. lia.
  - destruct o; [congruence|]. cbn [length]. lia.
Qed.
Lemma fnew_r : forall r : rt, r = [] -> rsim whole fnew r.
Proof.
  intros r ->. split; [constructor|]. exists [], []. split; [|reflexivity].
  unfold rd_inv. cbn. split; [apply bNew_ok|]. split; [reflexivity|]. split; [constructor|].
  split; [reflexivity|]. split; [constructor|apply cut_nil].
Qed.
Lemma fnew_w : fclean fnew (MkWt [] []).
Proof. split; [reflexivity|]. split; [apply bNew_ok|split; reflexivity]. Qed.

(** Calls over frames, cut in any way on the way, give what they give over plain pipes, provided
    every message fits a frame. *)
Theorem C77_calls_binary : forall intw H strict strictW x M cf fuel errtext
    (handle : H -> bytes -> list any -> (list (Z * any) * option bytes) * H) fs cut1 cut2 l h,
  32 <= intw -> cuts cut1 -> cuts cut2 ->
  fits (binaryR strict) (binaryW strictW) nop (fun s => s) (fun s => s) x M cf fuel errtext handle fs
    bdrain bfeed cut2 frameable 0 l (bstart h) ->
  match
    calls (o_binaryR (read_all_over (framed_read intw)) strict) (o_binaryW framed_wr (copy_over framed_wr) strictW)
      fflush (fun s => s) (fun s => s) x M cf fuel errtext handle fs fdrain ffeed cut1 0 l (fstart h),
    calls (binaryR strict) (binaryW strictW) nop (fun s => s) (fun s => s) x M cf fuel errtext handle fs
      bdrain bfeed cut2 0 l (bstart h)
  with
  | Ok (rs1, st1), Ok (rs2, st2) => rs1 = rs2 /\ pr_h st1 = pr_h st2
  | Panic, Panic | OutOfFuel, OutOfFuel => True
  | _, _ => False
  end.
Proof.
  intros intw H strict strictW x M cf fuel errtext handle fs cut1 cut2 l h Wi K1 K2 F.
  pose proof (over_binaryR false (framed_read intw) whole (whole_delivers intw Wi) framed_unread whole_unread strict) as RR.
  pose proof (framed_accepts false (MkWt [] [])) as A.
  pose proof (over_binaryW false framed_wr (copy_over framed_wr) _ A (copy_over_accepts _ _ _ _ A) strictW) as WW.
  pose proof (hcalls (rsim whole) fsimo fsimf _ _ _ _ fflush nop RR WW fflush_sim
    (fun s => s) (fun s => s) (fun _ _ E => E) (fun s => s) (fun s => s) (fun _ _ E => E)
    x M cf fuel errtext handle fs fdrain bdrain ffeed bfeed cut1 cut2 frameable fclean fclean_sim) as Q.
  specialize (Q ltac:(
    intros n s1 s2 i1 i2 Sf O Ei; split; [eapply fdrain_clean; exact Sf|];
    destruct Sf as (_ & _ & _ & Ww); unfold fdrain, bfeed; cbn [fst bdrain] in *; rewrite Ww; cbn [w_out];
    apply ffeed_sim with (o := w_out s2); [exact Ei|apply frameable_payload, O|apply K1|apply K2])).
  specialize (Q ltac:(intros s1 s2 [-> _] [O _]; cbn in O; lia) l 0%nat (fstart h) (bstart h)).
  assert (P : psim (H := H) (rsim whole) fclean (fstart h) (bstart h)).
  { unfold psim, fstart, bstart. cbn. pose proof (fnew_r [] eq_refl). pose proof fnew_w. auto 8. }
  specialize (Q P F). unfold hsame in Q.
  destruct (calls (o_binaryR _ _) _ _ _ _ _ _ _ _ _ _ _ _ _ _ _ _ _) as [[rs1 st1]| |],
    (calls (binaryR _) _ _ _ _ _ _ _ _ _ _ _ _ _ _ _ _ _) as [[rs2 st2]| |]; try contradiction; try discriminate; auto.
  destruct Q as [-> (_ & Eh & _)]. auto.
Qed.
Print Assumptions C77_calls_binary.

Definition cfdrain (s : framed * cstate) : bytes * (framed * cstate) :=
  let '(b, f) := fdrain (fst s) in (b, (f, snd s)).
Definition cffeed (s : framed * cstate) (cs : list bytes) : framed * cstate := (ffeed (fst s) cs, snd s).
Definition cfflush : wop (framed * cstate) := fun t => '(e, f) <- fflush (fst t) ;; Ok (e, (f, snd t)).
Definition cffresh (s : framed * cstate) : framed * cstate := (fst s, cinit).
Definition cfstart {H} (h : H) : @pair (framed * cstate) (framed * cstate) H :=
  MkPair new_client_factory (MkWorld (fnew, cinit) (fnew, cinit) (fnew, cinit) (fnew, cinit)) h (fnew, cinit) (fnew, cinit).
Theorem C77_calls_compact : forall intw H x M cf fuel errtext
    (handle : H -> bytes -> list any -> (list (Z * any) * option bytes) * H) fs cut1 cut2 l h,
  32 <= intw -> cuts cut1 -> cuts cut2 ->
  fits compactR compactW nop cfreshR cfreshW x M cf fuel errtext handle fs
    cdrain cfeed cut2 frameable 0 l (cstart h) ->
  match
    calls (o_compactR (read_all_over (framed_read intw)) framed_unread) (o_compactW framed_wr)
      cfflush cffresh cffresh x M cf fuel errtext handle fs cfdrain cffeed cut1 0 l (cfstart h),
    calls compactR compactW nop cfreshR cfreshW x M cf fuel errtext handle fs
      cdrain cfeed cut2 0 l (cstart h)
  with
  | Ok (rs1, st1), Ok (rs2, st2) => rs1 = rs2 /\ pr_h st1 = pr_h st2
  | Panic, Panic | OutOfFuel, OutOfFuel => True
  | _, _ => False
  end.
Proof.
  intros intw H x M cf fuel errtext handle fs cut1 cut2 l h Wi K1 K2 F.
  pose proof (over_compactR false (framed_read intw) whole (whole_delivers intw Wi) framed_unread whole_unread) as RR.
  pose proof (over_compactW false false framed_wr _ (framed_accepts false (MkWt [] []))) as WW.
  set (simf := fun (s : framed * cstate) (w : cw) => fsimf (fst s) (fst w) /\ snd s = snd w).
  set (clean := fun (s : framed * cstate) (w : cw) => fclean (fst s) (fst w) /\ snd s = snd w).
  assert (FF : forall s1 s2, wsimc (framed_takes (MkWt [] [])) s1 s2 -> hsame false simf (cfflush s1) (nop s2)).
  { intros [f c] [w c2] [E1 E2]. cbn in E1, E2. subst c2. unfold cfflush. cbn [fst snd].
    pose proof (fflush_sim f w E1) as Q. unfold fflush in *. cbn [obind]. destruct (framed_flush None f) as [e f'].
    cbn in Q. destruct Q as [-> Q]. apply hsame_ok. split; [exact Q|reflexivity]. }
  pose proof (hcalls (rsimc whole) (wsimc (framed_takes (MkWt [] []))) simf _ _ _ _ cfflush nop RR WW FF
    cffresh cfreshR ltac:(intros s1 s2 [E1 _]; split; [exact E1|reflexivity])
    cffresh cfreshW ltac:(intros s1 s2 [E1 _]; split; [exact E1|reflexivity])
    x M cf fuel errtext handle fs cfdrain cdrain cffeed cfeed cut1 cut2 frameable clean
    ltac:(intros s1 s2 [E1 E2]; split; [apply fclean_sim, E1|exact E2])) as Q.
  specialize (Q ltac:(
    intros n [s1 c1] [s2 c2] [i1 d1] [i2 d2] [Sf E2] O [Ei E4]; cbn [fst snd] in *; subst c2 d2;
    split; [split; [eapply fdrain_clean; exact Sf|reflexivity]|];
    destruct Sf as (_ & _ & _ & Ww); split; [|reflexivity];
    unfold cfdrain, cdrain, fdrain, cffeed, cfeed in *; cbn [fst snd] in *; rewrite Ww; cbn [w_out];
    apply ffeed_sim with (o := w_out s2); [exact Ei|apply frameable_payload, O|apply K1|apply K2])).
  specialize (Q ltac:(intros [s1 c1] [s2 c2] [[E1 _] _] [O _]; cbn [fst] in E1; subst s2; cbn in O; lia)
    l 0%nat (cfstart h) (cstart h)).
  assert (P : psim (H := H) (rsimc whole) clean (cfstart h) (cstart h)).
  { unfold psim, cfstart, cstart, rsimc, clean. cbn. pose proof (fnew_r [] eq_refl). pose proof fnew_w. auto 10. }
  specialize (Q P F). unfold hsame in Q.
  destruct (calls (o_compactR _ _) _ _ _ _ _ _ _ _ _ _ _ _ _ _ _ _ _) as [[rs1 st1]| |],
    (calls compactR _ _ _ _ _ _ _ _ _ _ _ _ _ _ _ _ _) as [[rs2 st2]| |]; try contradiction; try discriminate; auto.
  destruct Q as [-> (_ & Eh & _)]. auto.
Qed.
Print Assumptions C77_calls_compact.

(** With C47: over frames, too, each call returns what the handler returned for its arguments. *)
Theorem C77_served_binary : forall intw H strict strictW x M cf fuel errtext
    (handle : H -> bytes -> list any -> (list (Z * any) * option bytes) * H) (Inv : H -> Prop) fs cut1 cut2 l h,
  32 <= intw -> cuts cut1 ->
  fits (binaryR strict) (binaryW strictW) nop (fun s => s) (fun s => s) x M cf fuel errtext handle fs
    bdrain bfeed cut2 frameable 0 l (bstart h) ->
  orders x -> strictW = true \/ strict = false -> cuts cut2 -> (4 <= fuel)%nat ->
  (forall f, In f fs -> func_ok f) -> NoDup (map fn_name fs) ->
  Inv h ->
  (forall f args h vals, In (f, args) l -> Inv h -> Forall2 same args vals -> Inv (snd (handle h (fn_name f) vals))) ->
  (forall f args h vals attrs h', In (f, args) l -> Inv h -> Forall2 same args vals -> handle h (fn_name f) vals = ((attrs, None), h') ->
     (forall m, chosen f attrs m -> kept x (m_ty m) (attribute attrs (m_id m)) \/
                                    absent (m_ty m) (attribute attrs (m_id m))) /\
     forall rf, reply x f attrs rf -> (need (VStruct rf) <= fuel)%nat) ->
  (forall f args h vals attrs text h', In (f, args) l -> Inv h -> Forall2 same args vals -> handle h (fn_name f) vals = ((attrs, Some text), h') ->
     exc_ok (MkExc INTERNAL_ERROR (s_internal ++ fn_name f ++ s_colon ++ text))) ->
  (forall f args, In (f, args) l -> In f fs /\ fn_oneway f = false /\ kept_args x f args /\
     forall wv, wireof x (TyStruct (args_name f) (fn_args f)) (args_val f args) wv -> (need wv <= fuel)%nat) ->
  exists rs st,
    calls (o_binaryR (read_all_over (framed_read intw)) strict) (o_binaryW framed_wr (copy_over framed_wr) strictW)
      fflush (fun s => s) (fun s => s) x M cf fuel errtext handle fs fdrain ffeed cut1 0 l (fstart h) = Ok (rs, st) /\
    serves handle l h rs (pr_h st) /\ Inv (pr_h st).
Proof.
  intros intw H strict strictW x M cf fuel errtext handle Inv fs cut1 cut2 l h Wi K1 F Ho Hs K2 F4 Fok Nd Hi His Hok Tok Lok.
  destruct (C47_binary_states_partial H strict strictW x M cf fuel errtext handle Inv fs cut2 l h Ho Hs K2 F4 Fok Nd Hi His Hok Tok Lok)
    as (rs & st & E & Sv & Iv & _).
  pose proof (C77_calls_binary intw H strict strictW x M cf fuel errtext handle fs cut1 cut2 l h Wi K1 K2 F) as Q.
  rewrite E in Q. destruct (calls (o_binaryR _ _) _ _ _ _ _ _ _ _ _ _ _ _ _ _ _ _ _) as [[rs1 st1]| |]; try contradiction.
  destruct Q as [-> Eh]. exists rs, st1. split; [reflexivity|]. rewrite Eh. split; [exact Sv|exact Iv].
Qed.
Print Assumptions C77_served_binary.

Theorem C77_served_compact : forall intw H x M cf fuel errtext
    (handle : H -> bytes -> list any -> (list (Z * any) * option bytes) * H) (Inv : H -> Prop) fs cut1 cut2 l h,
  32 <= intw -> cuts cut1 ->
  fits compactR compactW nop cfreshR cfreshW x M cf fuel errtext handle fs
    cdrain cfeed cut2 frameable 0 l (cstart h) ->
  orders x -> cuts cut2 -> (4 <= fuel)%nat ->
  (forall f, In f fs -> func_ok f) -> NoDup (map fn_name fs) ->
  (forall f m, In f fs -> In m (fn_args f ++ result_members f) -> no_binary (m_ty m)) ->
  Inv h ->
  (forall f args h vals, In (f, args) l -> Inv h -> Forall2 same args vals -> Inv (snd (handle h (fn_name f) vals))) ->
  (forall f args h vals attrs h', In (f, args) l -> Inv h -> Forall2 same args vals -> handle h (fn_name f) vals = ((attrs, None), h') ->
     (forall m, chosen f attrs m -> kept x (m_ty m) (attribute attrs (m_id m)) \/
                                    absent (m_ty m) (attribute attrs (m_id m))) /\
     forall rf, reply x f attrs rf -> cokv (VStruct rf) /\ (need (VStruct rf) <= fuel)%nat) ->
  (forall f args h vals attrs text h', In (f, args) l -> Inv h -> Forall2 same args vals -> handle h (fn_name f) vals = ((attrs, Some text), h') ->
     exc_ok (MkExc INTERNAL_ERROR (s_internal ++ fn_name f ++ s_colon ++ text))) ->
  (forall f args, In (f, args) l -> In f fs /\ fn_oneway f = false /\ kept_args x f args /\
     forall wv, wireof x (TyStruct (args_name f) (fn_args f)) (args_val f args) wv ->
       cokv wv /\ (need wv <= fuel)%nat) ->
  exists rs st,
    calls (o_compactR (read_all_over (framed_read intw)) framed_unread) (o_compactW framed_wr)
      cfflush cffresh cffresh x M cf fuel errtext handle fs cfdrain cffeed cut1 0 l (cfstart h) = Ok (rs, st) /\
    serves handle l h rs (pr_h st) /\ Inv (pr_h st).
Proof.
  intros intw H x M cf fuel errtext handle Inv fs cut1 cut2 l h Wi K1 F Ho K2 F4 Fok Nd Nb Hi His Hok Tok Lok.
  destruct (C47_compact_states_partial H x M cf fuel errtext handle Inv fs cut2 l h Ho K2 F4 Fok Nd Nb Hi His Hok Tok Lok)
    as (rs & st & E & Sv & Iv & _).
  pose proof (C77_calls_compact intw H x M cf fuel errtext handle fs cut1 cut2 l h Wi K1 K2 F) as Q.
  rewrite E in Q. destruct (calls (o_compactR _ _) _ _ _ _ _ _ _ _ _ _ _ _ _ _ _ _ _) as [[rs1 st1]| |]; try contradiction.
  destruct Q as [-> Eh]. exists rs, st1. split; [reflexivity|]. rewrite Eh. split; [exact Sv|exact Iv].
Qed.
Print Assumptions C77_served_compact.

(** The calls of C47's example, over frames arriving in pieces of two bytes. *)
Ltac sent := let E := fresh in
  intros ? ? ? E; vm_compute in E; injection E as <- <- <-; split; [reflexivity|split; [vm_compute; split; [discriminate|reflexivity]|]].
Ltac one_call := split; [sent; let E := fresh in
    intros ? E; vm_compute in E; injection E as <-; vm_compute; split; [discriminate|reflexivity]
  |let E := fresh in intros ? ? E; vm_compute in E; injection E as <- <-].
Example C77_case :
  let l := [(ex_add, arg0 5); (ex_add, arg0 0); (ex_add, arg0 (-1)); (ex_note, [AStr [120]]); (ex_add, ex_args)] in
  let rs := [([(0, AInt64 15); (1, ANil)], None);
             ([(0, AInt64 0); (1, ANil)],
               Some (RApp (MkExc 6 (s_internal ++ [97; 100; 100; 58; 32; 122; 101; 114; 111]))));
             ([(0, AInt64 0); (1, ex_raise [110; 101; 103])], None);
             ([], None);
             ([(0, AInt64 18); (1, ANil)], None)] in
  cuts (fun _ => pairs_of) /\
  fits (binaryR true) (binaryW true) nop (fun s => s) (fun s => s) ext0 64 5 40 errtext0 ex_handle ex_fs
    bdrain bfeed (fun _ => pairs_of) frameable 0 l (bstart 10) /\
  fits compactR compactW nop cfreshR cfreshW ext0 64 5 40 errtext0 ex_handle ex_fs
    cdrain cfeed (fun _ => pairs_of) frameable 0 l (cstart 10) /\
  (exists st, calls (o_binaryR (read_all_over (framed_read 64)) true) (o_binaryW framed_wr (copy_over framed_wr) true)
     fflush (fun s => s) (fun s => s) ext0 64 5 40 errtext0 ex_handle ex_fs fdrain ffeed (fun _ => pairs_of) 0 l (fstart 10)
     = Ok (rs, st) /\ pr_h st = 14) /\
  (exists st, calls (o_compactR (read_all_over (framed_read 64)) framed_unread) (o_compactW framed_wr)
     cfflush cffresh cffresh ext0 64 5 40 errtext0 ex_handle ex_fs cfdrain cffeed (fun _ => pairs_of) 0 l (cfstart 10)
     = Ok (rs, st) /\ pr_h st = 14).
Proof.
  cbv zeta. split; [exact pairs_cuts|].
  split; [do 5 one_call; exact I|]. split; [do 5 one_call; exact I|].
  split; eexists; (split; [vm_compute; reflexivity|reflexivity]).
Qed.
