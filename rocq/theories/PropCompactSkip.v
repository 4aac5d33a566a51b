(** C69: Skip over TCompactProtocol on arbitrary input. *)
From Coq Require Import ZArith List Bool Lia.
From Verif Require Import Base Arith Errors Transport TransportProofs Proto Values WfDec Compact Skip SkipProofs CompactSkip.
Import ListNotations.
Open Scope Z_scope.

(** ** C69 *)

(** Whatever the input, however it is cut and whatever errors the transport gives, Skip of any type
    comes to an end, having read on in the input; it panics only if a varint that is a negative
    32-bit number starts somewhere in the input. *)
Theorem C69_terminates_partial : forall M f t d r c, (2 * length (content r) + 2 <= f)%nat ->
  (exists e r' c', skip compactR M f t d (r, c) = Ok (e, (r', c')) /\ exists used, content r = used ++ content r') \/
  (skip compactR M f t d (r, c) = Panic /\
   exists used r1 c1 n s, content r = used ++ content r1 /\ readVarint32 (r1, c1) = Ok (n, None, s) /\ n < 0).
Proof.
  intros M f t d r c L. pose proof (skip_compact_keeps r M f t d c L) as K.
  destruct (skip compactR M f t d (r, c)) as [[e [r' c']]| |]; cbn in K; [left|right|contradiction].
  - exists e, r', c'. auto.
  - split; [reflexivity|]. destruct K as (r1 & c1 & n & s & [u U] & E & N). exists u, r1, c1, n, s. auto.
Qed.
Print Assumptions C69_terminates_partial.

(** Skip of a string whose length is the varint -1 panics. *)
Theorem C69_panic_refuted : exists r, benign r /\ is_bytes (content r) /\
  skip compactR 64 100 STRING 64 (r, cinit) = Panic /\
  skip compactR 64 100 STRUCT 64 (([24], None) :: r, cinit) = Panic.
Proof. exists [([255; 255; 255; 255; 15], None)]. concrete. Qed.
Print Assumptions C69_panic_refuted.

(** A struct with a string and a map, cut in the middle, with something after it; and
    garbage with a transport error in it. *)
Example C69_ex :
  skip compactR 64 100 STRUCT 64
    ([([24; 2; 65], None); ([66; 27; 1; 88], None); ([6; 1; 67; 0; 9], None)], cinit) =
    Ok (None, ([([9], None)], MkC [0] 0 None false false)) /\
  exists e s, skip compactR 64 100 STRUCT 64
    ([([24; 9; 88; 1; 7], None); ([3; 25], Some (EOther 5))], cinit) = Ok (e, s) /\ content (fst s) = [].
Proof. split; [vm_compute; reflexivity|]. eexists _, _. split; vm_compute; reflexivity. Qed.
