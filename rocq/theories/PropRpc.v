(** Properties of TApplicationException: C43. *)
From Coq Require Import ZArith List Bool Lia.
From Coq Require Import ZifyBool ZifyNat.
From Verif Require Import Base Errors Transport Proto Arith Values BinaryProofs BinarySpec Binary TransportProofs Compact
  CompactSpec CompactStruct CompactExact WfDec.
From Verif Require Import Gen GenSpec GenProofs GenInst AppExc AppExcProofs.
Import ListNotations.
Open Scope Z_scope.

(** ** C43 *)

(** [fs] are the fields of the exception [x] with any others put before, between and after
    them: fields numbered other than 1 and 2, and fields so numbered but of another type. *)
Definition carries (x : appexc) (fs : list (Z * tval)) : Prop :=
  filter known_field fs = exc_fields x.
(** A message and type Go can hold. *)
Definition exc_ok (x : appexc) : Prop :=
  in_s 32 (x_type x) /\ is_bytes (x_msg x) /\ Z.of_nat (length (x_msg x)) < 2 ^ 31.

Lemma carries_of : forall x fs, carries x fs -> exc_of fs = x.
Proof.
  intros x fs H. unfold exc_of. rewrite exc_of_extra. unfold carries in H. rewrite H. apply exc_of_fields.
Qed.
Lemma exc_wf : forall x, exc_ok x -> wf (VStruct (exc_fields x)).
Proof.
  intros [t [|b m]] (H1 & H2 & H3); cbn [x_type x_msg] in *.
  - cbn [exc_fields x_msg x_type app wf all fst snd]. split; [split; [unfold in_s; lia|assumption]|exact I].
  - cbn [exc_fields x_msg x_type app wf all fst snd].
    split; [split; [unfold in_s; lia|split; assumption]|]. split; [split; [unfold in_s; lia|assumption]|exact I].
Qed.
Lemma exc_carries : forall x, carries x (exc_fields x).
Proof. intros [t [|b m]]; reflexivity. Qed.

(** Write puts a struct on the wire that carries the exception; whatever carries it is read
    back as it, exactly. *)
Theorem C43_binary : forall strict M x, exc_ok x ->
  (exists fs, carries x fs /\ forall o,
     app_write (binaryW strict) x (MkWt o []) = Ok (None, MkWt (o ++ sb_val (VStruct fs)) [])) /\
  (forall fs, carries x fs -> wf (VStruct fs) -> exists n, forall f r rest, (n <= f)%nat ->
     benign r -> content r = sb_val (VStruct fs) ++ rest ->
     exists r', app_read (binaryR strict) M f r = Ok (Some x, None, r') /\ benign r' /\ content r' = rest).
Proof.
  intros strict M x Ok_x. split.
  - exists (exc_fields x). split; [apply exc_carries|]. intro o.
    eapply app_write_wr. apply bwr_val, exc_wf, Ok_x.
  - intros fs C W. exists (need (VStruct fs)). intros f r rest N B X.
    destruct (brd_val strict _ W r rest B X) as (r' & Rd & B' & X').
    exists r'. split; [|auto]. rewrite <- (carries_of x fs C). eapply app_read_rd; eassumption.
Qed.
Print Assumptions C43_binary.

(** With the compact protocol the same holds when no extra field has a false boolean field and
    ids that follow nested structs are not in delta form.  Missing: those (C18, C19); see below. *)
Theorem C43_compact_partial : forall M x, exc_ok x ->
  (exists fs, carries x fs /\ no_false_field (VStruct fs) = true /\ ids_kept (VStruct fs) = true /\
     forall o c, booleanField c = None ->
     app_write compactW x (MkWt o [], c) = Ok (None, (MkWt (o ++ sc_val (VStruct fs)) [], c))) /\
  (forall fs, carries x fs -> wf (VStruct fs) ->
     no_false_field (VStruct fs) = true -> ids_kept (VStruct fs) = true ->
     exists n, forall f r c rest, (n <= f)%nat -> boolValueIsNotNull c = false ->
     benign r -> content r = sc_val (VStruct fs) ++ rest ->
     exists r' c', app_read compactR M f (r, c) = Ok (Some x, None, (r', c')) /\
       benign r' /\ content r' = rest /\ boolValueIsNotNull c' = false).
Proof.
  intros M x Ok_x. split.
  - exists (exc_fields x). split; [apply exc_carries|].
    split; [destruct x as [t [|b m]]; reflexivity|]. split; [destruct x as [t [|b m]]; reflexivity|].
    intros o [stk last bf bv nn] E. cbn in E. subst bf.
    eapply app_write_wr. apply cwr_val, exc_wf, Ok_x.
  - intros fs C W F A. exists (need (VStruct fs)). intros f r c rest N Bv B X.
    destruct (crd_val _ c r rest W F A Bv B X) as (r' & c' & Rd & B' & Af & X').
    exists r', c'. split; [|split; [assumption|split; [assumption|exact Af]]].
    change (untyped_empty (VStruct fs)) with
      (VStruct (map (fun f => (fst f, untyped_empty (snd f))) fs)) in Rd.
    erewrite app_read_rd; [|exact Rd|].
    + f_equal. f_equal. f_equal. f_equal. rewrite <- (carries_of x fs C). unfold exc_of.
      generalize (MkExc 0 []). clear. induction fs as [|[id v] fs IH]; intro x0; [reflexivity|].
      cbn [map fold_left fst snd].
      replace (said x0 (id, untyped_empty v)) with (said x0 (id, v)); [apply IH|].
      unfold said. destruct v as [| | | | | | | | |k t [|]|]; reflexivity.
    + rewrite <- need_ue in N. exact N.
Qed.
Print Assumptions C43_compact_partial.

(** An exception and an extended form of it: unknown fields first, between and last, and the
    known ids with unexpected types. *)
Example C43_case :
  let x := MkExc 4 [111; 111; 112; 115] in
  let fs := [ (7, VList I32 [VI32 1; VI32 (-1)]); (1, VI64 5); (1, VStr [111; 111; 112; 115])
            ; (-3, VMap STRING BYTE []); (2, VI32 4); (2, VBool true)
            ; (40, VStruct [(1, VStr [])]) ] in
  exc_ok x /\ carries x fs /\ wf (VStruct fs) /\
  no_false_field (VStruct fs) = true /\ ids_kept (VStruct fs) = true.
Proof. unfold exc_ok, carries. concrete. vm_compute. reflexivity. Qed.

(** A false boolean among the extra fields: the compact reader fails. *)
Theorem C43_compact_false_refuted : exists x fs, exc_ok x /\ carries x fs /\ wf (VStruct fs) /\
  ids_kept (VStruct fs) = true /\
  exists e s, app_read compactR 64 100 ([(sc_val (VStruct fs), None)], cinit) = Ok (None, Some e, s).
Proof.
  exists (MkExc 6 [120]), [(1, VStr [120]); (2, VI32 6); (3, VBool false)].
  unfold exc_ok, carries. concrete; [vm_compute; reflexivity|]. eexists _, _. vm_compute. reflexivity.
Qed.
Print Assumptions C43_compact_false_refuted.
(** A doubly nested struct among the extra fields: the message after it is lost, without an
    error. *)
Theorem C43_compact_nested_refuted : exists x fs, exc_ok x /\ carries x fs /\ wf (VStruct fs) /\
  no_false_field (VStruct fs) = true /\
  exists y s, app_read compactR 64 100 ([(sc_val (VStruct fs), None)], cinit) = Ok (Some y, None, s) /\
    x_msg y = [] /\ x_msg x <> [].
Proof.
  exists (MkExc 6 [120]), [(-1, VStruct [(1, VStruct [(1, VStruct [(7, VByte 5)])])]); (1, VStr [120]); (2, VI32 6)].
  unfold exc_ok, carries. concrete; [vm_compute; reflexivity|]. eexists _, _. split; [vm_compute; reflexivity|].
  split; [reflexivity|discriminate].
Qed.
Print Assumptions C43_compact_nested_refuted.
