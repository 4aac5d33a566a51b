(** Calls over frames, for services whose messages are not too large: C77. *)
From Coq Require Import ZArith List Bool Lia.
From Coq Require Import ZifyBool ZifyNat.
From Verif Require Import Base Errors Transport Proto Arith TransportProofs Binary Compact Buffer BufIO
  Framed FramedProofs MemBuffer IOStream Http Socket ReadProg WriteErr Over Het OverSim OverInst OverRpc.
From Verif Require Import TField GoVal Compare TMap Values Gen GenSpec AppExc AppExcProofs Rpc RpcProofs RpcFits.
From Verif Require Import GenProofs GenInst GenRound Codec BinarySpec CompactSpec CompactStruct PropFramed PropGen PropRpc PropService PropOver PropOverRpc WfDec Sizes.
Import ListNotations.
Open Scope Z_scope.

Local Notation length := List.length.
(** The number of bytes of a value, as the protocol's document has it. *)
Definition bsize (v : tval) : Z := Z.of_nat (length (sb_val v)).
Definition csize (v : tval) : Z := Z.of_nat (length (sc_val v)).
(** What the message of an exception takes. *)
Definition failure (f : func) (text : bytes) : tval :=
  VStruct (exc_fields (MkExc INTERNAL_ERROR (s_internal ++ fn_name f ++ s_colon ++ text))).

Lemma bmsg_size : forall strict name t seq,
  0 < Z.of_nat (length (bmsg strict name t seq)) <= Z.of_nat (length name) + 12.
Proof.
  intros [] name t seq; unfold bmsg, sb_message_strict, sb_message_old, sb_string; rewrite !app_length, !be_length; cbn [length]; lia.
Qed.
Lemma uvar_size : forall k n u, u < 128 ^ Z.of_nat k -> (1 <= k)%nat -> (length (uvar n u) <= k)%nat.
Proof.
  induction k as [|k IH]; intros n u Hu Hk; [lia|].
  destruct n as [|n]; cbn [uvar length]; [lia|]. destruct (Z.ltb_spec u 128); [cbn; lia|]. cbn [length].
  destruct k as [|k]; [cbn in Hu; lia|]. apply le_n_S, IH; [|lia].
  apply Z.div_lt_upper_bound; [lia|]. rewrite (Nat2Z.inj_succ (S k)), Z.pow_succ_r in Hu by lia. exact Hu.
Qed.
Lemma cmsg_size : forall name t seq, Z.of_nat (length name) < 2 ^ 31 ->
  0 < Z.of_nat (length (sc_message name t seq)) <= Z.of_nat (length name) + 12.
Proof.
  intros name t seq Hn. unfold sc_message, sc_string, sc_var. rewrite !app_length.
  pose proof (uvar_size 5 10 (seq mod 2 ^ 32) ltac:(pose proof (Z.mod_pos_bound seq (2 ^ 32) ltac:(lia)); change (128 ^ Z.of_nat 5) with (2 ^ 35); lia) ltac:(lia)).
  pose proof (uvar_size 5 10 (Z.of_nat (length name)) ltac:(change (128 ^ Z.of_nat 5) with (2 ^ 35); lia) ltac:(lia)).
  cbn [length]. lia.
Qed.

(** Any service, handler, number and order of calls, as in C47, with a frame around each message and frames arriving in
    any pieces: each call returns what the handler returned for the arguments of that call.  The messages must fit:
    [a] bounds what a name and the message's head take, [c] what arguments, results and exceptions take. *)
Theorem C77_sizes_binary_states : forall intw H strict strictW x M cf fuel errtext
    (handle : H -> bytes -> list any -> (list (Z * any) * option bytes) * H) (Iv : H -> Prop) fs cut l h a c,
  32 <= intw -> cuts cut -> a + c < 2 ^ 31 ->
  orders x -> strictW = true \/ strict = false -> (4 <= fuel)%nat ->
  (forall f, In f fs -> func_ok f /\ Z.of_nat (length (fn_name f)) + 12 <= a) -> NoDup (map fn_name fs) ->
  Iv h ->
  (forall f args h vals, In (f, args) l -> Iv h -> Forall2 same args vals -> Iv (snd (handle h (fn_name f) vals))) ->
  (forall f args h vals attrs h', In (f, args) l -> Iv h -> Forall2 same args vals -> handle h (fn_name f) vals = ((attrs, None), h') ->
     (forall m, chosen f attrs m -> kept x (m_ty m) (attribute attrs (m_id m)) \/
                                    absent (m_ty m) (attribute attrs (m_id m))) /\
     forall rf, reply x f attrs rf -> bsize (VStruct rf) <= c /\ (need (VStruct rf) <= fuel)%nat) ->
  (forall f args h vals attrs text h', In (f, args) l -> Iv h -> Forall2 same args vals -> handle h (fn_name f) vals = ((attrs, Some text), h') ->
     exc_ok (MkExc INTERNAL_ERROR (s_internal ++ fn_name f ++ s_colon ++ text)) /\ bsize (failure f text) <= c) ->
  (forall f args, In (f, args) l -> In f fs /\ fn_oneway f = false /\ kept_args x f args /\
     forall wv, wireof x (TyStruct (args_name f) (fn_args f)) (args_val f args) wv -> bsize wv <= c /\ (need wv <= fuel)%nat) ->
  exists rs st,
    calls (o_binaryR (read_all_over (framed_read intw)) strict) (o_binaryW framed_wr (copy_over framed_wr) strictW)
      fflush (fun s => s) (fun s => s) x M cf fuel errtext handle fs fdrain ffeed cut 0 l (fstart h) = Ok (rs, st) /\
    serves handle l h rs (pr_h st) /\ Iv (pr_h st).
Proof.
  intros intw H strict strictW x M cf fuel errtext handle Iv fs cut l h a c Wi Hc Hac Ho Hst F4 Fok Nd Hv Hvs Hok Tok Lok.
  apply C77_served_binary with (Inv := Iv) (cut2 := cut); try assumption.
  2: { intros f Hf. apply Fok, Hf. }
  2: { intros f args h0 vals attrs h' Hl Hi0 Fv E. destruct (Hok f args h0 vals attrs h' Hl Hi0 Fv E) as [K N]. split; [exact K|]. intros rf Rp. apply N, Rp. }
  2: { intros f args h0 vals attrs text h' Hl Hi0 Fv E. eapply Tok; eassumption. }
  2: { intros f args Hl. destruct (Lok f args Hl) as (Hf & One & Ka & N). split; [exact Hf|]. split; [exact One|].
       split; [exact Ka|]. intros wv Ww. apply N, Ww. }
  set (okm := fun name seq => cokm name seq /\ Z.of_nat (length name) + 12 <= a).
  set (oke := fun e => exc_ok e /\ bsize (VStruct (exc_fields e)) <= c).
  set (okv := fun v => bsize v <= c).
  set (okf := fun f => func_ok f /\ Z.of_nat (length (fn_name f)) + 12 <= a).
  set (Inv := fun st : @pair rt wt H => Iv (pr_h st) /\ c_factory (pr_c st) = true /\ c_out (pr_c st) = Some FromFactory /\
    c_in (pr_c st) = Some FromFactory /\ bow (o_own (pr_w st)) [] /\ bow (pr_out st) [] /\ bir (i_own (pr_w st)) [] /\ bir (pr_in st) []).
  set (good := fun f args => In (f, args) l).
  assert (Fr : forall b, doc sb_val (bmsg strictW) [] okm okv b -> frameable b).
  { intros b (name & t & seq & v & _ & [_ Kn] & _ & Kv & ->). unfold frameable. rewrite !app_length. cbn [length].
    pose proof (bmsg_size strictW name t seq). unfold okv, bsize in Kv. lia. }
  apply fits_by with (Inv := Inv) (good := good).
  - intros n f args st Hl (V & C1 & C2 & C3 & O1 & O2 & I1 & I2). destruct (Lok f args Hl) as (Hf & One & [La Ka] & N).
    destruct (call_served (binaryR strict) (binaryW strictW) nop (fun s => s) (fun s => s) x M cf fuel errtext handle
      true true false bow bow bir bir sb_val (bmsg strictW) [] okm oke okv okf (fun _ => True)
      (bow_val strictW) (fun e s o _ => bow_exc strictW e s o I)
      (fun name t seq s o Ht _ => bow_msg strictW name t seq s o Ht I) bow_end bow_nop
      (fun name t seq v s rest Ht Km Wv _ => bir_msg' strict strictW Hst name t seq v s rest Ht (proj1 Km) Wv I)
      (fun v s rest Wv _ => bir_val strict v s rest Wv I) (bir_end strict)
      (fun s o E => E) (fun f H => proj1 H) (fun f seq Kf Hs => conj (okm_of f seq (proj1 Kf) Hs) (proj2 Kf)) Ho
      (fun e K => conj (exc_wf e (proj1 K)) (proj2 K)) bdrain bfeed cut bdrain_ok (Forall (fun c => c <> [])) bfeed_ok
      (fun n b _ => Hc n b) I F4 fs f args n st Fok Nd) as [(c1 & w1 & p & E1 & D1 & P & D2) (r & st' & E & Sv & J)];
      try assumption.
    + intros vals Fv. unfold does_ok. destruct (handle (pr_h st) (fn_name f) vals) as [[attrs [text|]] h1] eqn:E.
      * exact (Tok f args _ vals attrs text h1 Hl V Fv E).
      * destruct (Hok f args _ vals attrs h1 Hl V Fv E) as [K Nr]. split; [intros m _ D; discriminate|]. split; [exact K|exact Nr].
    + split; [exact La|]. split; [intro D; discriminate|]. split; [exact Ka|exact N].
    + split.
      * exists c1, w1, p. split; [exact E1|]. split; [apply Fr, D1|]. split; [exact P|apply Fr, D2].
      * exists r, st'. split; [exact E|]. split; [|exact J].
        inversion Sv as [vals ? ? ? Fv Eh|vals ? ? ? Fv Eh]; subst;
          pose proof (Hvs f args (pr_h st) vals Hl V Fv) as K; rewrite Eh in K; exact K.
  - intros f args Hl. exact Hl.
  - unfold Inv, bstart. cbn. split; [exact Hv|]. split; [reflexivity|]. split; [reflexivity|]. split; [reflexivity|].
    split; [reflexivity|]. split; [reflexivity|]. split; (split; [constructor|reflexivity]).
Qed.
Print Assumptions C77_sizes_binary_states.
Theorem C77_sizes_binary : forall intw H strict strictW x M cf fuel errtext
    (handle : H -> bytes -> list any -> (list (Z * any) * option bytes) * H) fs cut l h a c,
  32 <= intw -> cuts cut -> a + c < 2 ^ 31 ->
  orders x -> strictW = true \/ strict = false -> (4 <= fuel)%nat ->
  (forall f, In f fs -> func_ok f /\ Z.of_nat (length (fn_name f)) + 12 <= a) -> NoDup (map fn_name fs) ->
  (forall f h vals attrs h', In f fs -> handle h (fn_name f) vals = ((attrs, None), h') ->
     (forall m, chosen f attrs m -> kept x (m_ty m) (attribute attrs (m_id m)) \/
                                    absent (m_ty m) (attribute attrs (m_id m))) /\
     forall rf, reply x f attrs rf -> bsize (VStruct rf) <= c /\ (need (VStruct rf) <= fuel)%nat) ->
  (forall f h vals attrs text h', In f fs -> handle h (fn_name f) vals = ((attrs, Some text), h') ->
     exc_ok (MkExc INTERNAL_ERROR (s_internal ++ fn_name f ++ s_colon ++ text)) /\ bsize (failure f text) <= c) ->
  (forall f args, In (f, args) l -> In f fs /\ fn_oneway f = false /\ kept_args x f args /\
     forall wv, wireof x (TyStruct (args_name f) (fn_args f)) (args_val f args) wv -> bsize wv <= c /\ (need wv <= fuel)%nat) ->
  exists rs st,
    calls (o_binaryR (read_all_over (framed_read intw)) strict) (o_binaryW framed_wr (copy_over framed_wr) strictW)
      fflush (fun s => s) (fun s => s) x M cf fuel errtext handle fs fdrain ffeed cut 0 l (fstart h) = Ok (rs, st) /\
    serves handle l h rs (pr_h st).
Proof.
  intros intw H strict strictW x M cf fuel errtext handle fs cut l h a c Wi Hc Hac Ho Hst F4 Fok Nd Hok Tok Lok.
  destruct (C77_sizes_binary_states intw H strict strictW x M cf fuel errtext handle (fun _ => True) fs cut l h a c)
    as (rs & st & E & Sv & _); try assumption; auto.
  - intros f args h0 vals attrs h' Hl _ _. apply Hok. exact (proj1 (Lok f args Hl)).
  - intros f args h0 vals attrs text h' Hl _ _. apply Tok. exact (proj1 (Lok f args Hl)).
  - exists rs, st. auto.
Qed.
Print Assumptions C77_sizes_binary.

(** The same over the compact protocol, for values it carries. *)
Theorem C77_sizes_compact_states : forall intw H x M cf fuel errtext
    (handle : H -> bytes -> list any -> (list (Z * any) * option bytes) * H) (Iv : H -> Prop) fs cut l h a c,
  32 <= intw -> cuts cut -> a + c < 2 ^ 31 ->
  orders x -> (4 <= fuel)%nat ->
  (forall f, In f fs -> func_ok f /\ Z.of_nat (length (fn_name f)) + 12 <= a) -> NoDup (map fn_name fs) ->
  (forall f m, In f fs -> In m (fn_args f ++ result_members f) -> no_binary (m_ty m)) ->
  Iv h ->
  (forall f args h vals, In (f, args) l -> Iv h -> Forall2 same args vals -> Iv (snd (handle h (fn_name f) vals))) ->
  (forall f args h vals attrs h', In (f, args) l -> Iv h -> Forall2 same args vals -> handle h (fn_name f) vals = ((attrs, None), h') ->
     (forall m, chosen f attrs m -> kept x (m_ty m) (attribute attrs (m_id m)) \/
                                    absent (m_ty m) (attribute attrs (m_id m))) /\
     forall rf, reply x f attrs rf -> (cokv (VStruct rf) /\ csize (VStruct rf) <= c) /\ (need (VStruct rf) <= fuel)%nat) ->
  (forall f args h vals attrs text h', In (f, args) l -> Iv h -> Forall2 same args vals -> handle h (fn_name f) vals = ((attrs, Some text), h') ->
     exc_ok (MkExc INTERNAL_ERROR (s_internal ++ fn_name f ++ s_colon ++ text)) /\ csize (failure f text) <= c) ->
  (forall f args, In (f, args) l -> In f fs /\ fn_oneway f = false /\ kept_args x f args /\
     forall wv, wireof x (TyStruct (args_name f) (fn_args f)) (args_val f args) wv ->
       (cokv wv /\ csize wv <= c) /\ (need wv <= fuel)%nat) ->
  exists rs st,
    calls (o_compactR (read_all_over (framed_read intw)) framed_unread) (o_compactW framed_wr)
      cfflush cffresh cffresh x M cf fuel errtext handle fs cfdrain cffeed cut 0 l (cfstart h) = Ok (rs, st) /\
    serves handle l h rs (pr_h st) /\ Iv (pr_h st).
Proof.
  intros intw H x M cf fuel errtext handle Iv fs cut l h a c Wi Hc Hac Ho F4 Fok Nd Nb Hv Hvs Hok Tok Lok.
  apply C77_served_compact with (Inv := Iv) (cut2 := cut); try assumption.
  2: { intros f Hf. apply Fok, Hf. }
  2: { intros f args h0 vals attrs h' Hl Hi0 Fv E. destruct (Hok f args h0 vals attrs h' Hl Hi0 Fv E) as [K N]. split; [exact K|].
       intros rf Rp. destruct (N rf Rp) as [[A _] B]. split; assumption. }
  2: { intros f args h0 vals attrs text h' Hl Hi0 Fv E. eapply Tok; eassumption. }
  2: { intros f args Hl. destruct (Lok f args Hl) as (Hf & One & Ka & N). split; [exact Hf|]. split; [exact One|].
       split; [exact Ka|]. intros wv Ww. destruct (N wv Ww) as [[A _] B]. split; assumption. }
  set (okm := fun name seq => cokm name seq /\ Z.of_nat (length name) + 12 <= a).
  set (oke := fun e => exc_ok e /\ csize (VStruct (exc_fields e)) <= c).
  set (okv := fun v => cokv v /\ csize v <= c).
  set (okf := fun f => func_ok f /\ Z.of_nat (length (fn_name f)) + 12 <= a).
  set (Inv := fun st : @pair cr cw H => Iv (pr_h st) /\ c_factory (pr_c st) = true /\ c_out (pr_c st) = Some FromFactory /\
    c_in (pr_c st) = Some FromFactory /\ cow (o_own (pr_w st)) [] /\ cow (pr_out st) [] /\ cir (i_own (pr_w st)) [] /\ cir (pr_in st) []).
  set (good := fun f args => In (f, args) l).
  assert (Fr : forall b, doc sc_val sc_message [] okm okv b -> frameable b).
  { intros b (name & t & seq & v & _ & [[Kn' _] Kn] & _ & [_ Kv] & ->). unfold frameable. rewrite !app_length. cbn [length].
    pose proof (cmsg_size name t seq Kn'). unfold csize in Kv. lia. }
  apply fits_by with (Inv := Inv) (good := good).
  - intros n f args st Hl (V & C1 & C2 & C3 & O1 & O2 & I1 & I2). destruct (Lok f args Hl) as (Hf & One & [La Ka] & N).
    destruct (call_served compactR compactW nop cfreshR cfreshW x M cf fuel errtext handle
      false true true cow cow cir cir sc_val sc_message [] okm oke okv okf (fun _ => True)
      cow_val (fun e s o K => cow_exc e s o (proj1 K)) (fun name t seq s o Ht K => cow_msg name t seq s o Ht (proj1 K)) cow_end cow_nop
      (fun name t seq v s rest Ht Km _ _ => cir_msg name t seq s (sc_val v ++ rest) Ht (proj1 Km))
      (fun v s rest Wv K => cir_val v s rest Wv (proj1 K)) cir_end) with
      (drain := cdrain) (feed := cfeed) (cut := cut) (safe := Forall (fun c : bytes => c <> [])) (fs := fs) (f := f) (args := args) (n := n) (st := st)
      as [(c1 & w1 & p & E1 & D1 & P & D2) (r & st' & E & Sv & J)]; try assumption.
    + intros s o (c0 & -> & _). exists cinit. split; reflexivity.
    + intros g Kg. apply Kg.
    + intros g seq Kg Hs. exact (conj (okm_of g seq (proj1 Kg) Hs) (proj2 Kg)).
    + intros e K. destruct (exc_both e (proj1 K)) as [A B]. exact (conj A (conj B (proj2 K))).
    + intros s o (c0 & -> & Hb). split; [reflexivity|]. exists c0. split; [reflexivity|exact Hb].
    + intros [r c0] cs (B & X & Nn) F. cbn [fst snd] in *. split; [apply feed_benign; assumption|].
      split; [|exact Nn]. cbn [cfeed fst]. rewrite feed_content, X. reflexivity.
    + intros k b _. apply Hc.
    + exact I.
    + intros vals Fv. unfold does_ok. destruct (handle (pr_h st) (fn_name f) vals) as [[attrs [text|]] h1] eqn:E.
      * exact (Tok f args _ vals attrs text h1 Hl V Fv E).
      * destruct (Hok f args _ vals attrs h1 Hl V Fv E) as [K Nr].
        split; [intros m Hm _; eapply Nb; [exact Hf|apply in_app_iff; right; exact Hm]|]. split; [exact K|exact Nr].
    + split; [exact La|].
      split; [intros _; apply nb_struct; intros m Hm; eapply Nb; [exact Hf|apply in_app_iff; left; exact Hm]|].
      split; [exact Ka|exact N].
    + split.
      * exists c1, w1, p. split; [exact E1|]. split; [apply Fr, D1|]. split; [exact P|apply Fr, D2].
      * exists r, st'. split; [exact E|]. split; [|exact J].
        inversion Sv as [vals ? ? ? Fv Eh|vals ? ? ? Fv Eh]; subst;
          pose proof (Hvs f args (pr_h st) vals Hl V Fv) as K; rewrite Eh in K; exact K.
  - intros f args Hl. exact Hl.
  - unfold Inv, cstart. cbn. split; [exact Hv|]. split; [reflexivity|]. split; [reflexivity|]. split; [reflexivity|].
    split; [exists cinit; split; reflexivity|]. split; [exists cinit; split; reflexivity|].
    split; (split; [constructor|split; reflexivity]).
Qed.
Print Assumptions C77_sizes_compact_states.
Theorem C77_sizes_compact : forall intw H x M cf fuel errtext
    (handle : H -> bytes -> list any -> (list (Z * any) * option bytes) * H) fs cut l h a c,
  32 <= intw -> cuts cut -> a + c < 2 ^ 31 ->
  orders x -> (4 <= fuel)%nat ->
  (forall f, In f fs -> func_ok f /\ Z.of_nat (length (fn_name f)) + 12 <= a) -> NoDup (map fn_name fs) ->
  (forall f m, In f fs -> In m (fn_args f ++ result_members f) -> no_binary (m_ty m)) ->
  (forall f h vals attrs h', In f fs -> handle h (fn_name f) vals = ((attrs, None), h') ->
     (forall m, chosen f attrs m -> kept x (m_ty m) (attribute attrs (m_id m)) \/
                                    absent (m_ty m) (attribute attrs (m_id m))) /\
     forall rf, reply x f attrs rf -> (cokv (VStruct rf) /\ csize (VStruct rf) <= c) /\ (need (VStruct rf) <= fuel)%nat) ->
  (forall f h vals attrs text h', In f fs -> handle h (fn_name f) vals = ((attrs, Some text), h') ->
     exc_ok (MkExc INTERNAL_ERROR (s_internal ++ fn_name f ++ s_colon ++ text)) /\ csize (failure f text) <= c) ->
  (forall f args, In (f, args) l -> In f fs /\ fn_oneway f = false /\ kept_args x f args /\
     forall wv, wireof x (TyStruct (args_name f) (fn_args f)) (args_val f args) wv ->
       (cokv wv /\ csize wv <= c) /\ (need wv <= fuel)%nat) ->
  exists rs st,
    calls (o_compactR (read_all_over (framed_read intw)) framed_unread) (o_compactW framed_wr)
      cfflush cffresh cffresh x M cf fuel errtext handle fs cfdrain cffeed cut 0 l (cfstart h) = Ok (rs, st) /\
    serves handle l h rs (pr_h st).
Proof.
  intros intw H x M cf fuel errtext handle fs cut l h a c Wi Hc Hac Ho F4 Fok Nd Nb Hok Tok Lok.
  destruct (C77_sizes_compact_states intw H x M cf fuel errtext handle (fun _ => True) fs cut l h a c)
    as (rs & st & E & Sv & _); try assumption; auto.
  - intros f args h0 vals attrs h' Hl _ _. apply Hok. exact (proj1 (Lok f args Hl)).
  - intros f args h0 vals attrs text h' Hl _ _. apply Tok. exact (proj1 (Lok f args Hl)).
  - exists rs, st. auto.
Qed.
Print Assumptions C77_sizes_compact.

(** C47's example service meets the bounds with much room. *)
Lemma ex_sizes : forall f h vals attrs h' rf, In f ex_fs -> ex_handle h (fn_name f) vals = ((attrs, None), h') ->
  reply ext0 f attrs rf -> bsize (VStruct rf) <= 100 /\ csize (VStruct rf) <= 100.
Proof.
  intros f h vals attrs h' rf Hf E Rp. apply ex_attrs in E. destruct E as (z & e & -> & Hz & He).
  assert (Raise : is_bytes [110; 101; 103] /\ Z.of_nat (length [110; 101; 103]) < 2 ^ 31)
    by (split; [concrete|vm_compute; reflexivity]).
  destruct Hf as [<-|[<-|[]]].
  - inversion Rp as [m w [Hm Nm] _ Ww|t w _ Et Ww|t N Et A|N Et]; subst.
    + destruct Hm as [<-|[]]. cbn [m_ty m_id] in *. destruct He as [-> | ->]; [destruct (Nm eq_refl)|].
      change (attribute _ 1) with (ex_raise [110; 101; 103]) in Ww.
      rewrite (wireof_fun _ _ _ _ _ Ww (ex_raise_wire _ (proj1 Raise) (proj2 Raise))). split; vm_compute; discriminate.
    + injection Et; intros; subst t. change (attribute _ 0) with (AInt64 z) in Ww. inversion Ww; subst. split.
      * apply Z.leb_le. reflexivity.
      * unfold csize. rewrite sc_val_struct. cbn [sc_fields]. unfold sc_fieldval. cbn [fst snd sc_val]. rewrite !app_length.
        pose proof (uvar_le 10 (zz z)) as U. change (sc_int z) with (uvar 10 (zz z)).
        set (k := length (uvar 10 (zz z))) in *. clearbody k.
        match goal with |- Z.of_nat (?p + k + ?q) <= _ => let p' := eval vm_compute in p in let q' := eval vm_compute in q in
          change p with p'; change q with q' end. lia.
    + injection Et; intros; subst t. destruct A as [(D & _)|(tag & n & cs & D & _)]; discriminate.
    + split; vm_compute; discriminate.
  - inversion Rp as [m w [Hm Nm] _ Ww|t w _ Et Ww|t N Et A|N Et]; subst; try discriminate; [destruct Hm|].
    split; vm_compute; discriminate.
Qed.

Example C77_sizes_case :
  (forall f, In f ex_fs -> func_ok f /\ Z.of_nat (length (fn_name f)) + 12 <= 100) /\
  (forall f h vals attrs h', In f ex_fs -> ex_handle h (fn_name f) vals = ((attrs, None), h') ->
     (forall m, chosen f attrs m -> kept ext0 (m_ty m) (attribute attrs (m_id m)) \/
                                    absent (m_ty m) (attribute attrs (m_id m))) /\
     forall rf, reply ext0 f attrs rf ->
       ((cokv (VStruct rf) /\ csize (VStruct rf) <= 100) /\ bsize (VStruct rf) <= 100) /\ (need (VStruct rf) <= 40)%nat) /\
  (forall f h vals attrs text h', In f ex_fs -> ex_handle h (fn_name f) vals = ((attrs, Some text), h') ->
     exc_ok (MkExc INTERNAL_ERROR (s_internal ++ fn_name f ++ s_colon ++ text)) /\
     bsize (failure f text) <= 100 /\ csize (failure f text) <= 100) /\
  (forall wv, wireof ext0 (TyStruct (args_name ex_add) (fn_args ex_add)) (args_val ex_add ex_args) wv ->
     ((cokv wv /\ csize wv <= 100) /\ bsize wv <= 100) /\ (need wv <= 40)%nat).
Proof.
  split.
  { intros f Hf. split; [apply ex_ok; destruct Hf as [<-|[<-|[]]]; cbn; auto|]. destruct Hf as [<-|[<-|[]]]; vm_compute; discriminate. }
  split.
  { intros f h vals attrs h' Hf E. destruct (ex_kept f h vals attrs h' Hf E) as [K N]. split; [exact K|].
    intros rf Rp. destruct (N rf Rp). destruct (ex_sizes f h vals attrs h' rf Hf E Rp). split; [auto|lia]. }
  split.
  { intros f h vals attrs text h' Hf E. split; [eapply ex_texts; eassumption|]. unfold ex_handle in E.
    assert (text = [122; 101; 114; 111]) as ->.
    { destruct vals as [|[] [|u [|]]]; try discriminate. destruct (z =? 0); [|destruct (z <? 0); discriminate].
      injection E; intros; congruence. }
    destruct Hf as [<-|[<-|[]]]; split; vm_compute; discriminate. }
  intros wv Ww. rewrite (wireof_fun _ _ _ _ _ Ww ex_args_wire). split; [|cbn; lia].
  split; [split; [split; reflexivity|]|]; vm_compute; discriminate.
Qed.
