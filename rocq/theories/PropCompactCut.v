(** C21 in full: which truncations of the compact encoding of any value are reported. *)
From Coq Require Import ZArith List Bool Lia.
From Coq Require Import ZifyBool ZifyNat.
From Verif Require Import Base Errors Transport Proto Arith TransportProofs Values Codec
  Binary Compact Skip CompactSpec CompactArith BinaryProofs SkipProofs CompactRead CompactStruct
  WfDec CompactExact CompactCut PropCompact.
Import ListNotations.
Open Scope Z_scope.

(** ** C21 *)

(** An encoding that ends [length q] bytes early is refused exactly if more is missing than
    bytes of a string that ends the value; otherwise a value is read, and nothing is left. *)
Theorem C21_exact : forall v p q f r c, wf v -> sc_val v = p ++ q -> q <> [] -> rd_idle c ->
  (need v <= f)%nat -> benign r -> content r = p ->
  ((exists e s', read_val compactR f (vtype v) (r, c) = Ok (inr e, s')) <-> (silent v < length q)%nat) /\
  ((length q <= silent v)%nat -> exists w r' c', read_val compactR f (vtype v) (r, c) = Ok (inl w, (r', c')) /\
     content r' = []).
Proof.
  intros v p q f r c W E N I Hf B X. subst p. symmetry in E.
  destruct (cut_val v W f c Hf I r q B E N) as [E1 E2]. split; [split|].
  - intros (e & s' & R). destruct (Nat.lt_ge_cases (silent v) (length q)) as [C|C]; [exact C|].
    destruct (E2 C) as (a & r' & c' & R' & _). rewrite R in R'. discriminate.
  - exact E1.
  - intros C. destruct (E2 C) as (a & r' & c' & R' & _ & X' & _). eauto 6.
Qed.
Print Assumptions C21_exact.
(** A struct, and so every generated struct, is refused wherever it is cut. *)
Theorem C21_structs : forall fs p q f r c, wf (VStruct fs) -> sc_val (VStruct fs) = p ++ q -> q <> [] -> rd_idle c ->
  (need (VStruct fs) <= f)%nat -> benign r -> content r = p ->
  exists e s', read_val compactR f STRUCT (r, c) = Ok (inr e, s').
Proof.
  intros fs p q f r c W E N I Hf B X. apply (C21_exact (VStruct fs) p q f r c); auto.
  assert (silent (VStruct fs) = O) as -> by (unfold silent; destruct (no_false_field _); reflexivity).
  destruct q; [congruence|cbn; lia].
Qed.
Print Assumptions C21_structs.

(** Two strings in a list: cut in the first, it is refused; cut in the second, it is not, and
    the missing bytes are zeros. *)
Example C21_exact_ex :
  let v := VList STRING [VStr [97; 98]; VStr [99; 100]] in
  wf v /\ sc_val v = [40; 2; 97; 98; 2; 99; 100] /\ silent v = 2%nat /\ (need v <= 2)%nat /\
  (exists e s', read_val compactR 2 LIST ([([40; 2; 97], None)], cinit) = Ok (inr e, s')) /\
  (exists s', read_val compactR 2 LIST ([([40; 2; 97; 98; 2; 99], None)], cinit) =
     Ok (inl (VList STRING [VStr [97; 98]; VStr [99; 0]]), s')) /\
  silent (VList STRUCT [VStruct [(1, VBool false)]]) = O.
Proof.
  cbv zeta. split; [concrete|]. split; [reflexivity|]. split; [reflexivity|]. split; [cbn; lia|].
  split; [eexists _, _; vm_compute; reflexivity|]. split; [eexists; vm_compute; reflexivity|reflexivity].
Qed.
Example C21_structs_ex :
  let v := VStruct [(1, VStr [97; 98])] in
  wf v /\ sc_val v = [24; 2; 97] ++ [98; 0] /\ (need v <= 3)%nat /\
  (exists e s', read_val compactR 3 STRUCT ([([24; 2], None); ([97], None)], cinit) = Ok (inr e, s')).
Proof.
  cbv zeta. split; [concrete|]. split; [reflexivity|]. split; [cbn; lia|]. eexists _, _; vm_compute; reflexivity.
Qed.
