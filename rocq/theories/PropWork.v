(** C118: how often a message makes the protocols call Read. *)
From Coq Require Import ZArith List Bool Lia.
From Coq Require Import ZifyBool ZifyNat.
From Verif Require Import Base Errors Transport Proto Skip Arith TransportProofs BinaryProofs Binary Compact
  Over Het OverSim OverInst.
From Verif Require Import TField GoVal Compare TMap Values Gen GenSpec PropGen AppExc Rpc RpcProofs PropService Serve ServeProofs WfDec.
Import ListNotations.
Open Scope Z_scope.
Local Notation length := List.length.

(** ** A transport that counts its Reads *)

(** An input and the number of calls of Read made on it. *)
Definition counted : Type := (rt * nat)%type.
Definition counted_read (n : nat) (s : counted) : bytes * option err * counted :=
  let '(d, e, r) := tread n (fst s) in (d, e, (r, S (snd s))).
Definition counted_left (s : counted) : nat := length (content (fst s)).
Definition countedB (strict : bool) : rproto counted := o_binaryR (read_all_over counted_read) strict.
Definition countedC : rproto (counted * cstate) := o_compactR (read_all_over counted_read) counted_left.

(** The Reads made from [s] to [s'] are not more than the bytes taken from the input. *)
Definition frugal (s s' : counted) : Prop :=
  (snd s' + counted_left s' <= snd s + counted_left s)%nat.

Definition kinv (K : nat) (s : counted) (C : bytes) : Prop :=
  benign (fst s) /\ content (fst s) = C /\ ((snd s + length C <= K)%nat \/ C = []).

Lemma counted_delivers : forall K, delivers counted_read (kinv K).
Proof.
  intros K [r c] C n (B & E & L) N. cbn [fst snd] in *. pose proof (tread_benign n r B N) as H. subst C.
  unfold counted_read. cbn [fst snd]. destruct (content r) as [|b0 C0] eqn:EC.
  - destruct H as [-> ->]. eexists _, _. split; [reflexivity|]. unfold kinv. cbn [fst snd].
    split; [constructor|]. split; [reflexivity|]. right. reflexivity.
  - destruct H as (d & r' & -> & Nd & Ld & EC' & B'). exists d, (content r'), (r', S c).
    split; [reflexivity|]. split; [exact Nd|]. split; [exact Ld|]. split; [exact EC'|].
    unfold kinv. cbn [fst snd]. split; [exact B'|]. split; [reflexivity|]. left.
    destruct L as [L|L]; [|discriminate]. rewrite EC', app_length in L.
    destruct d as [|d0 d]; [congruence|]. cbn [length] in L. lia.
Qed.
Lemma counted_bound : forall K s C, kinv K s C -> (length C <= counted_left s)%nat.
Proof. intros K s C (_ & <- & _). unfold counted_left. lia. Qed.

Definition wl (s : counted) : nat := (snd s + counted_left s)%nat.
Lemma kinv_start : forall s, benign (fst s) -> rsim (kinv (wl s)) s (fst s).
Proof. intros s B. split; [exact B|]. split; [exact B|]. split; [reflexivity|]. left. unfold wl, counted_left. lia. Qed.
Lemma kinv_end : forall s s' r, rsim (kinv (wl s)) s' r -> content (fst s') <> [] -> frugal s s'.
Proof.
  intros s s' r (_ & _ & E & L) N. rewrite <- E in L. unfold frugal, wl, counted_left in *.
  destruct L as [L|L]; [exact L|contradiction].
Qed.
Lemma rrB : forall K strict, rrel false (rsim (kinv K)) (countedB strict) (binaryR strict).
Proof. intros K strict. eapply over_binaryR; [apply counted_delivers|apply counted_bound]. Qed.
Lemma rrC : forall K, rrel false (rsimc (kinv K)) countedC compactR.
Proof. intro K. eapply over_compactR; [apply counted_delivers|apply counted_bound]. Qed.

(** An operation that reads: whatever it gives, if it leaves something of the input unread, it has made no
    more Reads than it took bytes. *)
Definition spares {A} (op : counted -> outcome (A * counted)) : Prop :=
  forall s a s', benign (fst s) -> op s = Ok (a, s') -> content (fst s') <> [] -> frugal s s'.
Definition sparesC {A} (op : counted * cstate -> outcome (A * (counted * cstate))) : Prop :=
  forall s cs a s' cs', benign (fst s) -> op (s, cs) = Ok (a, (s', cs')) -> content (fst s') <> [] -> frugal s s'.

Lemma sparesB_of : forall A (op : counted -> outcome (A * counted)) (op' : rt -> outcome (A * rt)),
  (forall K, hresp false (rsim (kinv K)) op op') -> spares op.
Proof.
  intros A op op' H s a s' B E N. specialize (H (wl s) s (fst s) (kinv_start s B)). rewrite E in H.
  destruct (op' (fst s)) as [[a' r']| |]; cbn in H; try contradiction.
  destruct H as [_ H]. eapply kinv_end; eassumption.
Qed.
Lemma sparesC_of : forall A (op : counted * cstate -> outcome (A * (counted * cstate))) (op' : cr -> outcome (A * cr)),
  (forall K, hresp false (rsimc (kinv K)) op op') -> sparesC op.
Proof.
  intros A op op' H s cs a s' cs' B E N.
  specialize (H (wl s) (s, cs) (fst s, cs) (conj (kinv_start s B) eq_refl)). rewrite E in H.
  destruct (op' (fst s, cs)) as [[a' r']| |]; cbn in H; try contradiction.
  destruct H as [_ [H _]]. eapply kinv_end; eassumption.
Qed.

(** ** C118 *)

(** Skip, for every type, depth and input. *)
Theorem C118_skip_partial :
  (forall strict M fuel t d, spares (skip (countedB strict) M fuel t d)) /\
  (forall M fuel t d, sparesC (skip countedC M fuel t d)).
Proof.
  split; intros.
  - apply sparesB_of with (op' := skip (binaryR strict) M fuel t d). intro K.
    apply (proj1 (hskip _ _ _ _ (rrB K strict) M fuel)).
  - apply sparesC_of with (op' := skip compactR M fuel t d). intro K.
    apply (proj1 (hskip _ _ _ _ (rrC K) M fuel)).
Qed.
Print Assumptions C118_skip_partial.

(** The reader generated for any type. *)
Theorem C118_read_partial :
  (forall strict x M cf fuel t, spares (gread (countedB strict) x M cf fuel t)) /\
  (forall x M cf fuel t, sparesC (gread countedC x M cf fuel t)).
Proof.
  split; intros.
  - apply sparesB_of with (op' := gread (binaryR strict) x M cf fuel t). intro K.
    apply (proj1 (hgread _ _ _ _ (rrB K strict) x M cf fuel)).
  - apply sparesC_of with (op' := gread compactR x M cf fuel t). intro K.
    apply (proj1 (hgread _ _ _ _ (rrC K) x M cf fuel)).
Qed.
Print Assumptions C118_read_partial.

(** Process of any service, whatever the request and whatever it writes with. *)
Theorem C118_process_partial :
  (forall strict SW H (W : wproto SW) flush x M cf fuel errtext (handle : H -> _) fs h s o p,
    benign (fst s) ->
    process (countedB strict) W flush x M cf fuel errtext handle fs h s o = Ok p ->
    content (fst (p_in p)) <> [] -> frugal s (p_in p)) /\
  (forall SW H (W : wproto SW) flush x M cf fuel errtext (handle : H -> _) fs h s cs o p,
    benign (fst s) ->
    process countedC W flush x M cf fuel errtext handle fs h (s, cs) o = Ok p ->
    content (fst (fst (p_in p))) <> [] -> frugal s (fst (p_in p))).
Proof.
  split; intros.
  - pose proof (hprocess false (rsim (kinv (wl s))) eq eq (countedB strict) (binaryR strict) W W flush flush
      (rrB _ strict) (wrel_refl _ W) ltac:(intros ? ? ->; apply hsame_refl) x M cf fuel errtext handle
      fs h s (fst s) o o (kinv_start s H0) eq_refl) as P.
    rewrite H1 in P. unfold psame in P.
    destruct (process (binaryR strict) W flush x M cf fuel errtext handle fs h (fst s) o); try contradiction.
    destruct P as (_ & _ & _ & P & _). eapply kinv_end; eassumption.
  - pose proof (hprocess false (rsimc (kinv (wl s))) eq eq countedC compactR W W flush flush
      (rrC _) (wrel_refl _ W) ltac:(intros ? ? ->; apply hsame_refl) x M cf fuel errtext handle
      fs h (s, cs) (fst s, cs) o o (conj (kinv_start s H0) eq_refl) eq_refl) as P.
    rewrite H1 in P. unfold psame in P.
    destruct (process compactR W flush x M cf fuel errtext handle fs h (fst s, cs) o); try contradiction.
    destruct P as (_ & _ & _ & [P _] & _). eapply kinv_end; eassumption.
Qed.
Print Assumptions C118_process_partial.

(** ** At the end of the input *)

(** Skip goes on with the elements that a header promises when the input has ended. *)
Lemma four : forall n, in_s 32 n -> exists a b c d, be 4 n = [a; b; c; d] /\ wraps 32 (be_uint32 [a; b; c; d]) = n.
Proof.
  intros n H. pose proof (be_length 4 n) as L.
  destruct (be 4 n) as [|a [|b [|c [|d [|]]]]] eqn:E; try discriminate L.
  exists a, b, c, d. split; [reflexivity|]. rewrite <- E, be_uint32_be. apply (wraps_unbe_be 4); [lia|exact H].
Qed.
Lemma elements_at_end : forall strict M f d k c,
  repeat_ignoring k (skip (countedB strict) M (S f) I32 d) ([], c) = Ok ([], (c + k)%nat).
Proof.
  intros strict M f d. induction k as [|k IH]; intro c; [cbn; f_equal; f_equal; lia|].
  cbn [repeat_ignoring]. change (skip (countedB strict) M (S f) I32 d ([], c))
    with (Ok (Some (ETransport UNKNOWN_TRANSPORT_EXCEPTION), (([], S c) : counted))).
  cbn [obind]. rewrite IH. f_equal. f_equal. lia.
Qed.
Lemma elements_at_endC : forall M f d cs k c,
  repeat_ignoring k (skip countedC M (S f) I32 d) (([], c), cs) = Ok (([], (c + k)%nat), cs).
Proof.
  intros M f d cs. induction k as [|k IH]; intro c; [cbn [repeat_ignoring]; rewrite Nat.add_0_r; reflexivity|].
  cbn [repeat_ignoring].
  match goal with |- obind ?u _ = _ => let v := eval lazy in u in change u with v end.
  cbn [obind]. rewrite IH. replace (c + S k)%nat with (S c + k)%nat by lia. reflexivity.
Qed.

Lemma list_at_end : forall strict M f d n c, 0 <= n < 2 ^ 31 ->
  skip (countedB strict) M (S (S f)) LIST d ([(I32 :: be 4 n, None)], c) = Ok (None, ([], (c + 2 + Z.to_nat n)%nat)).
Proof.
  intros strict M f d n c Hn.
  destruct (four n) as (b3 & b2 & b1 & b0 & -> & E); [unfold in_s; lia|].
  change (skip (countedB strict) M (S (S f)) LIST d ([([I32; b3; b2; b1; b0], None)], c))
    with (s2 <- repeat_ignoring (Z.to_nat (wraps 32 (be_uint32 [b3; b2; b1; b0])))
            (skip (countedB strict) M (S f) I32 (d - 1)) ([], S (S c)) ;; Ok (@None err, s2)).
  rewrite E, elements_at_end. cbn [obind]. replace (S (S c)) with (c + 2)%nat by lia. reflexivity.
Qed.

(** Five bytes, and as many Reads as they say: two for the header, and one for each element that is not there;
    no error is reported. *)
Theorem C118_skip_refuted : forall strict M f d n, 0 <= n < 2 ^ 31 ->
  skip (countedB strict) M (S (S f)) LIST d ([(I32 :: be 4 n, None)], O) = Ok (None, ([], (2 + Z.to_nat n)%nat)).
Proof. intros. apply list_at_end. assumption. Qed.
Print Assumptions C118_skip_refuted.

(** Over TCompactProtocol six bytes are good for more than two thousand million Reads. *)
Theorem C118_compact_refuted : forall M f d cs,
  skip countedC M (S (S f)) LIST d (([([245; 255; 255; 255; 255; 7], None)], O), cs) =
  Ok (None, (([], (6 + Z.to_nat (2 ^ 31 - 1))%nat), cs)).
Proof.
  intros M f d cs.
  assert (E : rListBegin countedC (([([245; 255; 255; 255; 255; 7], None)], O), cs) =
              Ok ((I32, 2 ^ 31 - 1), None, (([], 6%nat), cs))) by (vm_compute; reflexivity).
  change (skip countedC M (S (S f)) LIST d (([([245; 255; 255; 255; 255; 7], None)], O), cs))
    with ('((et, size), e, s1) <- rListBegin countedC (([([245; 255; 255; 255; 255; 7], None)], O), cs) ;;
        match e with
        | Some _ => Ok (e, s1)
        | None =>
          s2 <- repeat_ignoring (Z.to_nat size) (skip countedC M (S f) et (d - 1)) s1 ;;
          rListEnd countedC s2
        end).
  rewrite E. cbn [obind]. rewrite elements_at_endC. reflexivity.
Qed.
Print Assumptions C118_compact_refuted.

(** A request of 21 bytes for a method "x" that the service, whatever it is, does not have: the header of a
    call, the header of a field of type list, the header of the list.  Process makes more than [n] Reads on it
    before it answers. *)
Definition short_request (n : Z) : bytes :=
  [128; 1; 0; 1; 0; 0; 0; 1; 120; 0; 0; 0; 7; LIST; 0; 1; I32] ++ be 4 n.
Theorem C118_process_refuted :
  forall strict SW H (W : wproto SW) flush x M cf f errtext (handle : H -> _) fs h o o' n,
  0 <= n < 2 ^ 31 -> (forall g, In g fs -> fn_name g <> [120]) ->
  let ex := MkExc UNKNOWN_METHOD (s_unknown ++ [120]) in
  write_exception W flush [120] 7 ex o = Ok o' ->
  process (countedB strict) W flush x M cf (S (S (S (S f)))) errtext handle fs h ([(short_request n, None)], O) o
  = Ok (MkPout false (Some (RApp ex)) h ([], (9 + Z.to_nat n)%nat) o').
Proof.
  intros strict SW H W flush x M cf f errtext handle fs h o o' n Hn Hf ex Hw.
  unfold short_request.
  unfold process.
  match goal with |- obind ?u _ = _ =>
    assert (E1 : u = Ok (([120], 1, 7), None, ([(LIST :: 0 :: 1 :: I32 :: be 4 n, None)], 4%nat)))
      by (destruct (four n) as (b3 & b2 & b1 & b0 & -> & _); [unfold in_s; lia|]; lazy; reflexivity) end.
  rewrite E1. cbn [obind]. clear E1.
  replace (lookup_fn fs [120]) with (@None func).
  2: { unfold lookup_fn. symmetry. destruct (find _ _) as [g|] eqn:Ef; [|reflexivity].
       apply find_some in Ef. destruct Ef as [Ig Eg]. rewrite <- in_rev in Ig.
       exfalso. apply (Hf g Ig). symmetry. apply str_eq_iff, Eg. }
  unfold skip_default.
  change (skip (countedB strict) M (S (S (S (S f)))) STRUCT M)
    with (fun s => s2 <- skip_fields (countedB strict) M (S (S (S f))) M s ;; Ok (@None err, s2)). cbv beta.
  assert (E1 : forall s, skip_fields (countedB strict) M (S (S (S f))) M s =
    ('((_, typeId, _), _, s1) <- rFieldBegin (countedB strict) s ;;
      if typeId =? STOP then Ok s1
      else
        '(_, s2) <- skip (countedB strict) M (S (S f)) typeId (M - 1) s1 ;;
        '(_, s3) <- rFieldEnd (countedB strict) s2 ;;
        skip_fields (countedB strict) M (S (S f)) M s3)) by reflexivity.
  rewrite E1. clear E1.
  match goal with |- context [rFieldBegin ?u ?v] =>
    assert (E1 : rFieldBegin u v = Ok (([], LIST, 1), None, ([(I32 :: be 4 n, None)], 6%nat)))
      by (destruct (four n) as (b3 & b2 & b1 & b0 & -> & _); [unfold in_s; lia|]; lazy; reflexivity) end.
  rewrite E1. cbn [obind]. change (LIST =? STOP) with false. cbv iota.
  rewrite list_at_end by exact Hn. cbn [obind].
  change (rFieldEnd (countedB strict)) with (@nop counted). unfold nop. cbn [obind Nat.add].
  change (skip_fields (countedB strict) M (S (S f)) M ([], (8 + Z.to_nat n)%nat))
    with (Ok (([], S (8 + Z.to_nat n)) : counted)).
  cbn [obind]. change (rMessageEnd (countedB strict)) with (@nop counted). unfold nop. cbn [obind Nat.add].
  fold ex. rewrite Hw. reflexivity.
Qed.
Print Assumptions C118_process_refuted.

(** ** Buffers *)

(** A transport that records the sizes of the buffers it is to fill, the last first. *)
Definition sized_read_all (n : nat) (s : rt * list nat) : Z * bytes * option err * (rt * list nat) :=
  let '(c, d, e, r) := read_all n (fst s) in (c, d, e, (r, n :: snd s)).
Lemma sized_at_end : forall n l, (0 < n)%nat ->
  sized_read_all n ([], l) = (0, pad n [], Some (ETransport UNKNOWN_TRANSPORT_EXCEPTION), ([], n :: l)).
Proof. intros [|n] l H; [lia|]. reflexivity. Qed.

(** Four bytes are enough to have a buffer of any size made, before the first byte for it has come. *)
Theorem C118_buffer_refuted : forall strict n, 0 < n < 2 ^ 31 ->
  (exists e, rString (o_binaryR sized_read_all strict) ([(be 4 n, None)], [])
   = Ok (pad (Z.to_nat n) [], Some e, ([], [Z.to_nat n; 4%nat]))) /\
  (exists e, rBinary (o_binaryR sized_read_all strict) ([(be 4 n, None)], [])
   = Ok (pad (Z.to_nat n) [], Some e, ([], [Z.to_nat n; 4%nat]))).
Proof.
  intros strict n Hn. destruct (four n) as (b3 & b2 & b1 & b0 & -> & E); [unfold in_s; lia|].
  cbn [o_binaryR rString rBinary]. unfold o_bReadString, o_bReadBinary, o_bReadStringBody.
  match goal with |- context [o_bReadI32 ?u ?v] =>
    assert (E1 : o_bReadI32 u v = Ok (wraps 32 (be_uint32 [b3; b2; b1; b0]), None, ([], [4%nat]))) by reflexivity end.
  rewrite E in E1. rewrite E1. cbn [obind]. replace (n <? 0) with false by lia. rewrite sized_at_end by lia.
  split; eexists; reflexivity.
Qed.
Print Assumptions C118_buffer_refuted.

(** ** An example *)

(** A struct with two fields, in pieces, with a byte behind it, through Skip and a generated reader: twelve
    bytes and nine Reads.  The request of C118_process_refuted, to a service with two functions. *)
Definition ex_rest : rt := [([8; 0; 1; 0], None); ([0; 0; 9; 2; 0], None); ([2; 1; 0; 77], None)].
Example C118_case :
  benign ex_rest /\
  skip (countedB true) 64 10 STRUCT 64 (ex_rest, O) = Ok (None, ([([77], None)], 9%nat)) /\
  (exists a, gread (countedB true) ext0 64 5 10 (TyStruct [83] [Mem 1 [97] false None TyI32]) (ex_rest, O) =
     Ok (a, ([([77], None)], 9%nat))) /\
  frugal (ex_rest, O) ([([77], None)], 9%nat) /\
  (forall g, In g ex_fs -> fn_name g <> [120]) /\
  (exists o',
     write_exception (binaryW true) nop [120] 7 (MkExc UNKNOWN_METHOD (s_unknown ++ [120])) (MkWt [] []) = Ok o' /\
     process (countedB true) (binaryW true) nop ext0 64 5 40 errtext0 ex_handle ex_fs 7
       ([(short_request 1000, None)], O) (MkWt [] []) =
     Ok (MkPout false (Some (RApp (MkExc UNKNOWN_METHOD (s_unknown ++ [120])))) 7 ([], 1009%nat) o')).
Proof.
  split; [apply benignb_ok; reflexivity|]. split; [vm_compute; reflexivity|].
  split; [eexists; vm_compute; reflexivity|]. split; [unfold frugal, counted_left; cbn; lia|].
  split; [intros g Hg; repeat destruct Hg as [<-|Hg]; [discriminate..|destruct Hg]|].
  eexists. split; [vm_compute; reflexivity|]. vm_compute. reflexivity.
Qed.
