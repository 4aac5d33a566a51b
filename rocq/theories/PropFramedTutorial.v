(** The tutorial's client and server exchanging frames: C102. *)
From Coq Require Import ZArith List Bool Lia Permutation String.
From Coq Require Import ZifyBool ZifyNat.
From Verif Require Import Base Errors Transport Proto Skip Arith Values Codec SkipProofs BinaryProofs BinarySpec Binary BinaryMsg
  TransportProofs Compact CompactSpec CompactProofs CompactRead CompactStruct WfDec.
From Verif Require Import Buffer BufIO Framed FramedProofs MemBuffer IOStream Http Socket ReadProg WriteErr Over Het OverSim OverInst OverRpc PropFramed.
From Verif Require Import Strconv TField GoVal Compare TMap Gen GenSpec GenProofs GenInst GenRound PropGen.
From Verif Require Import AppExc AppExcProofs PropRpc Names Rpc RpcProofs PropService RpcInv PropOver PropOverRpc Sizes PropFramedCalls
  Tutorial PropTutorial.
Import ListNotations.
Open Scope list_scope.
Open Scope Z_scope.
Local Notation length := List.length.

(** Frames hold less than 2 GB, so a comment or a logged text that alone takes that much cannot be sent.  Texts of
    at most 1 GB can; those the server logs have at most 21 bytes. *)
Definition brief (args : list any) : Prop := forall ad n fc attrs s,
  In (AStruct ad n fc attrs) args -> In (4, AStr s) attrs -> Z.of_nat (length s) <= 2 ^ 30.
Definition lean_entry (v : any) : bool :=
  match v with AStruct _ _ _ [_; (_, AStr t)] => Z.of_nat (length t) <=? 2 ^ 30 | _ => false end.
Definition lean (p : tlog) : bool := forallb (fun e => lean_entry (snd e)) p.
Definition lean_handle (p : tlog) (name : bytes) (vals : list any) :=
  if lean p then safe_handle p name vals else (([], Some s_panic), p).

Lemma lean_put : forall p id z, lean p = true -> lean (log_put p id (mk_shared id (FormatInt z))) = true.
Proof.
  intros p id z L. unfold log_put, lean. cbn [forallb snd]. apply andb_true_iff. split.
  - cbn. destruct (format_bytes z) as [_ F]. lia.
  - unfold lean in L. rewrite forallb_forall in *. intros e He. apply filter_In in He. apply L, He.
Qed.
Lemma lean_get : forall p k, lean p = true -> log_get p k = ANil \/ lean_entry (log_get p k) = true.
Proof.
  intros p k L. unfold log_get. destruct (find _ p) as [e|] eqn:E; [|auto]. right.
  apply find_some in E. unfold lean in L. rewrite forallb_forall in L. apply L, E.
Qed.
Lemma lean_keeps : forall p name vals, lean p = true -> lean (snd (tut_handle p name vals)) = true.
Proof.
  intros p name vals L. unfold tut_handle. destruct (str_eq _ _).
  { destruct vals as [|[] []]; exact L. }
  destruct (str_eq _ _).
  { destruct vals as [|[] [|[] []]]; exact L. }
  destruct (str_eq _ _); [|exact L].
  destruct vals as [|[] [|w []]]; try exact L.
  destruct (_ =? _); [|exact L]. unfold h_Calculate.
  destruct w; try exact L. destruct (attribute attrs 3); try exact L. destruct (attribute attrs 1); try exact L.
  destruct (attribute attrs 2); try exact L. cbv zeta.
  repeat match goal with |- context [if ?c then _ else _] => destruct c end; try exact L; cbn [snd]; apply lean_put, L.
Qed.
Lemma entry_size : forall x v w, entry_fits v = true -> lean_entry v = true -> wireof x (TyStruct shared_name shared_ms) v w ->
  weight w <= 2 ^ 30 + 80.
Proof.
  intros x v w H Ll Ww. destruct (entry_shape v H) as (ad & fc & k & t & -> & _).
  assert (Lt : Z.of_nat (length t) <= 2 ^ 30) by (apply Z.leb_le; exact Ll). clear Ll H. set (n := 2 ^ 30) in *. clearbody n.
  assert (w = VStruct [(1, VI32 k); (2, VStr t)]) as ->; [|cbn [weight map fold_right snd]; lia].
  inversion Ww as [| | | | | | | | | | | |? ? ? ? ? ? F]; subst. cbn in F.
  inversion F; subst; [discriminate|]. clear F. cbn in *.
  match goal with F : wireoff _ _ _ _ |- _ => inversion F; subst; [discriminate|]; clear F end. cbn in *.
  match goal with F : wireoff _ _ [] _ |- _ => inversion F; subst; clear F end.
  wires. reflexivity.
Qed.
Lemma invalid_size : forall x what why w, why = s_divide \/ why = s_operation ->
  wireof x (TyStruct invalid_name invalid_ms) (mk_invalid what why) w -> weight w <= 200.
Proof.
  intros x what why w Hw Ww.
  inversion Ww as [| | | | | | | | | | | |? ? ? ? ? ? F]; subst. cbn in F.
  inversion F; subst; [discriminate|]. clear F. cbn in *.
  match goal with F : wireoff _ _ _ _ |- _ => inversion F; subst; [discriminate|]; clear F end. cbn in *.
  match goal with F : wireoff _ _ [] _ |- _ => inversion F; subst; clear F end.
  wires. destruct Hw as [-> | ->]; vm_compute; discriminate.
Qed.
Lemma reply_size : forall x f p vals attrs p' rf, In f calculator ->
  lean_handle p (fn_name f) vals = ((attrs, None), p') -> reply x f attrs rf -> weight (VStruct rf) <= 2 ^ 30 + 200.
Proof.
  intros x f p vals attrs p' rf Hf E Rp. unfold lean_handle in E. destruct (lean p) eqn:Ll; [|discriminate].
  unfold safe_handle in E. destruct (fits p) eqn:F; [|discriminate].
  destruct Hf as [<-|[<-|[<-|[<-|[<-|[]]]]]].
  - change (tut_handle p (fn_name f_getStruct) vals) with
      (match vals with [AInt32 key] => (([(0, h_GetStruct p key)], @None bytes), p) | _ => (([], Some s_panic), p) end) in E.
    destruct vals as [|[| | | | | |k| | | | | | | | | | | | | | | | | |] []]; try discriminate. injection E as <- <-.
    inversion Rp as [m w [[] _]|t w _ Et Ww|t N Et A|N Et]; subst; [| |discriminate].
    + cbn in Et. injection Et as <-. change (attribute _ 0) with (log_get p k) in Ww.
      destruct (get_fits p k F) as [G|G]; [rewrite G in Ww; inversion Ww|].
      destruct (lean_get p k Ll) as [G'|G']; [rewrite G' in Ww; inversion Ww|].
      pose proof (entry_size _ _ _ G G' Ww). cbn [weight map fold_right snd]. lia.
    + vm_compute. discriminate.
  - inversion Rp as [m w [[] _]|t w _ Et Ww|t N Et A|N Et]; subst; try discriminate; vm_compute; discriminate.
  - change (tut_handle p (fn_name f_add) vals) with
      (match vals with [AInt32 a; AInt32 b] => (([(0, AInt32 (h_Add a b))], @None bytes), p) | _ => (([], Some s_panic), p) end) in E.
    destruct vals as [|[| | | | | |a| | | | | | | | | | | | | | | | | |] [|[| | | | | |b| | | | | | | | | | | | | | | | | |] []]]; try discriminate.
    injection E as <- <-.
    inversion Rp as [m w [[] _]|t w _ Et Ww|t N Et A|N Et]; subst; [| |discriminate]; cbn in Et; injection Et as <-.
    + inversion Ww; subst. apply Z.leb_le. reflexivity.
    + destruct A as [(D & _)|(tag & n & cs & D & _)]; discriminate.
  - change (tut_handle p (fn_name f_calculate) vals) with
      (match vals with
       | [AInt32 logid; w] =>
         if wraps 32 logid =? logid then
           match h_Calculate p logid w with
           | Ok (val, ouch, p') => (([(0, AInt32 val); (1, ouch)], @None bytes), p')
           | _ => (([], Some s_panic), p)
           end
         else (([], Some s_panic), p)
       | _ => (([], Some s_panic), p)
       end) in E.
    destruct vals as [|[| | | | | |id| | | | | | | | | | | | | | | | | |] [|w []]]; try discriminate.
    destruct (wraps 32 id =? id); [|discriminate].
    destruct (h_Calculate p id w) as [[[val ouch] q]| |] eqn:C; try discriminate. injection E as <- <-.
    apply calculate_cases in C. destruct C as [V C].
    inversion Rp as [m w' [[<-|[]] Nm] _ Ww|t w' _ Et Ww|t N Et A|N Et]; subst; try discriminate.
    + change (attribute _ (m_id _)) with ouch in *. destruct C as [[-> _]|(_ & _ & what & why & -> & W & Y)]; [destruct (Nm eq_refl)|].
      pose proof (invalid_size _ _ _ _ Y Ww). cbn [weight map fold_right snd]. lia.
    + cbn in Et. injection Et as <-. inversion Ww; subst. apply Z.leb_le. reflexivity.
  - inversion Rp as [m w [[] _]|t w _ Et Ww|t N Et A|N Et]; subst; try discriminate; vm_compute; discriminate.
Qed.
Lemma text_size : forall f p vals attrs text p', In f calculator ->
  lean_handle p (fn_name f) vals = ((attrs, Some text), p') ->
  exc_ok (MkExc INTERNAL_ERROR (s_internal ++ fn_name f ++ s_colon ++ text)) /\ weight (failure f text) <= 200.
Proof.
  intros f p vals attrs text p' Hf E.
  assert (text = s_panic) as ->.
  { unfold lean_handle, safe_handle, tut_handle in E. destruct (lean p); [|congruence]. destruct (fits p); [|congruence].
    repeat match type of E with
    | (if ?c then _ else _) = _ => destruct c
    | match ?c with _ => _ end = _ => destruct c
    end; congruence. }
  destruct Hf as [<-|[<-|[<-|[<-|[<-|[]]]]]]; (split; [unfold exc_ok; (split; [concrete|split; [concrete|vm_compute; reflexivity]])|]);
    vm_compute; discriminate.
Qed.
Lemma args_size : forall x q f args wv, asks q (f, args) -> brief args ->
  wireof x (TyStruct (args_name f) (fn_args f)) (args_val f args) wv -> weight wv <= 2 ^ 30 + 300.
Proof.
  intros x q f args wv A B W. inversion A as [|a b Ha Hb|id op a b addr fc comment Hi Ho Ha Hb Bc Lc|k Hk]; subst.
  - inversion W as [| | | | | | | | | | | |? ? ? ? ? ? F]; subst. cbn in F. inversion F; subst. vm_compute. discriminate.
  - inversion W as [| | | | | | | | | | | |? ? ? ? ? ? F]; subst. cbn in F.
    inversion F; subst; [discriminate|]. clear F. cbn in *.
    match goal with F : wireoff _ _ _ _ |- _ => inversion F; subst; [discriminate|]; clear F end. cbn in *.
    match goal with F : wireoff _ _ [] _ |- _ => inversion F; subst; clear F end.
    wires. apply Z.leb_le. reflexivity.
  - assert (Bq : Z.of_nat (length comment) <= 2 ^ 30) by (eapply B; [right; left; reflexivity|cbn; auto 8]).
    inversion W as [| | | | | | | | | | | |? ? ? ? ? ? F]; subst. cbn [sorted_members fn_args f_calculate insert_m m_id Z.ltb Z.compare Pos.compare Pos.compare_cont] in F.
    inversion F as [|? ? ? ? E|? ? ? ? ? E I1 W1 F1]; subst; [discriminate|]. clear F.
    inversion F1 as [|? ? ? ? E2|? ? ? ? ? E2 I2 W2 F2]; subst; [discriminate|]. clear F1.
    inversion F2; subst; clear F2. inversion W1; subst. clear W1.
    inversion W2 as [| | | | | | | | | | | |? ? ? ? ? ? F]; subst. clear W2.
    change (sorted_members work_ms) with work_ms in F. unfold work_ms in F.
    inversion F as [|? ? ? ? E3|? ? ? ? ? E3 I3 W3 F3]; subst; [discriminate|]. clear F.
    inversion F3 as [|? ? ? ? E4|? ? ? ? ? E4 I4 W4 F4]; subst; [discriminate|]. clear F3.
    inversion W3; subst. inversion W4; subst. clear W3 W4.
    inversion F4 as [|? ? ? ? E5 F5|? ? ? ? ? E5 I5 W5 F5]; subst; clear F4.
    + inversion F5 as [|? ? ? ? E6 F6|? ? ? ? ? E6 I6 W6 F6]; subst; clear F5; inversion F6; subst;
        [|inversion W6; subst]; cbn [weight map fold_right snd]; lia.
    + inversion W5; subst. inversion F5 as [|? ? ? ? E6 F6|? ? ? ? ? E6 I6 W6 F6]; subst; clear F5; inversion F6; subst;
        [|inversion W6; subst]; cbn [weight map fold_right snd]; lia.
  - inversion W as [| | | | | | | | | | | |? ? ? ? ? ? F]; subst. cbn in F.
    inversion F; subst; [discriminate|]. clear F. cbn in *.
    match goal with F : wireoff _ _ [] _ |- _ => inversion F; subst; clear F end.
    wires. apply Z.leb_le. reflexivity.
Qed.
Lemma asked_size : forall x qs l, Forall2 asks qs l -> (forall f args, In (f, args) l -> brief args) ->
  forall f args, In (f, args) l -> forall wv,
  wireof x (TyStruct (args_name f) (fn_args f)) (args_val f args) wv -> weight wv <= 2 ^ 30 + 300.
Proof.
  intros x qs l A. induction A as [|q [g ar] qs l Hq A IH]; intros B f args H wv W; [destruct H|].
  destruct H as [E|H].
  - injection E as -> ->. eapply args_size; [exact Hq|apply (B f args); left; reflexivity|exact W].
  - eapply IH; [intros h a Ha; apply (B h a); right; exact Ha|exact H|exact W].
Qed.
Lemma calculator_small : forall f, In f calculator -> func_ok f /\ Z.of_nat (length (fn_name f)) + 12 <= 100.
Proof.
  intros f Hf. split; [apply calculator_ok, Hf|]. destruct Hf as [<-|[<-|[<-|[<-|[<-|[]]]]]]; vm_compute; discriminate.
Qed.
Lemma lean_results : forall x f p vals attrs p', In f calculator -> lean_handle p (fn_name f) vals = ((attrs, None), p') ->
  (forall m, chosen f attrs m -> kept x (m_ty m) (attribute attrs (m_id m)) \/
                                 absent (m_ty m) (attribute attrs (m_id m))) /\
  forall rf, reply x f attrs rf -> (need (VStruct rf) <= 8)%nat /\ cokv (VStruct rf).
Proof.
  intros x f p vals attrs p' Hf E. unfold lean_handle in E. destruct (lean p); [|discriminate]. eapply safe_results; eassumption.
Qed.
Definition log_ok (p : tlog) : Prop := fits p = true /\ lean p = true.
Lemma lean_agree : forall q name vals, log_ok q -> tut_handle q name vals = lean_handle q name vals.
Proof. intros q name vals [F L]. unfold lean_handle, safe_handle. rewrite F, L. reflexivity. Qed.
Lemma log_keeps : forall q name vals, log_ok q -> log_ok (snd (tut_handle q name vals)).
Proof. intros q name vals [F L]. split; [apply safe_keeps, F|apply lean_keeps, L]. Qed.

(** As C102_binary_partial, with a frame around each message and the frames arriving in any pieces. *)
Theorem C102_framed_binary_partial : forall intw strict strictW x M cf fuel errtext cut qs l p h,
  32 <= intw -> orders x -> strictW = true \/ strict = false -> cuts cut -> (10 <= fuel)%nat ->
  Forall2 asks qs l -> (forall f args, In (f, args) l -> brief args) -> fits p = true -> lean p = true -> logged p h ->
  exists rs st a h',
    calls (o_binaryR (read_all_over (framed_read intw)) strict) (o_binaryW framed_wr (copy_over framed_wr) strictW)
      fflush (fun s => s) (fun s => s) x M cf fuel errtext tut_handle calculator fdrain ffeed cut 0 l (fstart p) = Ok (rs, st) /\
    dialogue h qs a h' /\ Forall2 shows a rs /\ logged (pr_h st) h' /\ fits (pr_h st) = true /\ lean (pr_h st) = true.
Proof.
  intros intw strict strictW x M cf fuel errtext cut qs l p h Wi Ho Hst Hc Hf A B Fp Lp L.
  destruct (C77_sizes_binary intw tlog strict strictW x M cf fuel errtext lean_handle calculator cut l p 100 (2 ^ 30 + 400))
    as (rs & st & E & Sv); try assumption; try lia.
  - exact calculator_small.
  - exact calculator_names.
  - intros f q vals attrs q' If E. destruct (lean_results x f q vals attrs q' If E) as [K N]. split; [exact K|].
    intros rf Rp. destruct (N rf Rp). pose proof (reply_size x f q vals attrs q' rf If E Rp).
    pose proof (bsize_weight (VStruct rf)). unfold bsize. split; lia.
  - intros f q vals attrs text q' If E. destruct (text_size f q vals attrs text q' If E) as [K N]. split; [exact K|].
    pose proof (bsize_weight (failure f text)). unfold bsize. lia.
  - intros f args H. destruct (asked_ok x _ _ A f args H) as (If & One & Ka & W).
    split; [exact If|]. split; [exact One|]. split; [exact Ka|]. intros wv Ww. destruct (W wv Ww).
    pose proof (asked_size x _ _ A B f args H wv Ww). pose proof (bsize_weight wv). unfold bsize. split; lia.
  - destruct (serves_agree tut_handle lean_handle log_ok lean_agree log_keeps l p rs _ (conj Fp Lp) Sv) as [Sv' [Fp' Lp']].
    destruct (steps _ _ _ _ _ _ A L Sv') as (a & h' & D & Sh & L').
    exists rs, st, a, h'. split; [|auto].
    rewrite (calls_agree _ _ _ _ _ _ _ _ _ _ tut_handle lean_handle log_ok lean_agree log_keeps); [exact E|split; assumption].
Qed.
Print Assumptions C102_framed_binary_partial.
Theorem C102_framed_compact_partial : forall intw x M cf fuel errtext cut qs l p h,
  32 <= intw -> orders x -> cuts cut -> (10 <= fuel)%nat ->
  Forall2 asks qs l -> (forall f args, In (f, args) l -> brief args) -> fits p = true -> lean p = true -> logged p h ->
  exists rs st a h',
    calls (o_compactR (read_all_over (framed_read intw)) framed_unread) (o_compactW framed_wr)
      cfflush cffresh cffresh x M cf fuel errtext tut_handle calculator cfdrain cffeed cut 0 l (cfstart p) = Ok (rs, st) /\
    dialogue h qs a h' /\ Forall2 shows a rs /\ logged (pr_h st) h' /\ fits (pr_h st) = true /\ lean (pr_h st) = true.
Proof.
  intros intw x M cf fuel errtext cut qs l p h Wi Ho Hc Hf A B Fp Lp L.
  destruct (C77_sizes_compact intw tlog x M cf fuel errtext lean_handle calculator cut l p 100 (2 ^ 30 + 400))
    as (rs & st & E & Sv); try assumption; try lia.
  - exact calculator_small.
  - exact calculator_names.
  - intros f m If Im.
    destruct If as [<-|[<-|[<-|[<-|[<-|[]]]]]]; cbn in Im;
      repeat (destruct Im as [<-|Im]; [cbn; repeat constructor; intros ? J; repeat (destruct J as [<-|J]; [constructor|]); destruct J|]); destruct Im.
  - intros f q vals attrs q' If E. destruct (lean_results x f q vals attrs q' If E) as [K N]. split; [exact K|].
    intros rf Rp. destruct (N rf Rp). pose proof (reply_size x f q vals attrs q' rf If E Rp).
    pose proof (csize_weight (VStruct rf)). unfold csize. split; [split; [assumption|lia]|lia].
  - intros f q vals attrs text q' If E. destruct (text_size f q vals attrs text q' If E) as [K N]. split; [exact K|].
    pose proof (csize_weight (failure f text)). unfold csize. lia.
  - intros f args H. destruct (asked_ok x _ _ A f args H) as (If & One & Ka & W).
    split; [exact If|]. split; [exact One|]. split; [exact Ka|]. intros wv Ww. destruct (W wv Ww).
    pose proof (asked_size x _ _ A B f args H wv Ww). pose proof (csize_weight wv). unfold csize. split; [split; [assumption|lia]|lia].
  - destruct (serves_agree tut_handle lean_handle log_ok lean_agree log_keeps l p rs _ (conj Fp Lp) Sv) as [Sv' [Fp' Lp']].
    destruct (steps _ _ _ _ _ _ A L Sv') as (a & h' & D & Sh & L').
    exists rs, st, a, h'. split; [|auto].
    rewrite (calls_agree _ _ _ _ _ _ _ _ _ _ tut_handle lean_handle log_ok lean_agree log_keeps); [exact E|split; assumption].
Qed.
Print Assumptions C102_framed_compact_partial.

(** The calls of the tutorial's client, over frames arriving in pieces of two bytes. *)
Example C102_framed_ex :
  (forall f args, In (f, args) Perform -> brief args) /\ fits [] = true /\ lean [] = true /\ logged [] [] /\
  lean (log_put [] 7 (mk_shared 7 (FormatInt (-3)))) = true /\
  (exists rs st, calls (o_compactR (read_all_over (framed_read 64)) framed_unread) (o_compactW framed_wr)
     cfflush cffresh cffresh ext0 64 5 40 errtext0 tut_handle calculator cfdrain cffeed (fun _ => pairs_of) 0 Perform (cfstart [])
     = Ok (rs, st) /\ Forall2 shows [Done; Number 2; Refused 4 "Cannot divide by 0"; Number 5; Entry 1 5] rs).
Proof.
  split.
  { intros f args H. unfold brief. intros ad n fc attrs s Ia Is.
    repeat (destruct H as [H|H]; [injection H as <- <-; cbn in Ia;
      repeat (destruct Ia as [Ia|Ia]; [try discriminate; injection Ia as <- <- <- <-; cbn in Is;
        repeat (destruct Is as [Is|Is]; [try discriminate; injection Is as <-; vm_compute; discriminate|]); destruct Is|]); destruct Ia|]).
    destruct H. }
  split; [reflexivity|]. split; [reflexivity|]. split; [split; [intros k v H; inversion H|intros k _; reflexivity]|].
  split; [vm_compute; reflexivity|].
  eexists _, _. split; [vm_compute; reflexivity|].
  repeat constructor; cbn; eauto 8. eexists _, _, _. split; [reflexivity|].
  apply (dec_pos [53]); [discriminate|]. repeat constructor; lia.
Qed.
