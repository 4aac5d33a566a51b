(** Properties of TCompactProtocol: C13 - C25. *)
From Coq Require Import ZArith List Bool Lia.
From Coq Require Import ZifyBool ZifyNat.
From Verif Require Import Base Errors Transport Proto Arith TransportProofs Values Codec
  Compact CompactSpec Skip CompactArith CompactProofs CompactRead CompactStruct BinaryProofs
  SkipProofs ReadProg WfDec.
Import ListNotations.
Open Scope Z_scope.
Ltac Zify.zify_post_hook ::= Z.div_mod_to_equations.

(** ** Vocabulary *)
(** In protocol state [c], [op] appends exactly [bs] to the transport. *)
Definition emits (c : cstate) (op : wop cw) (bs : bytes) (c' : cstate) : Prop :=
  forall o, op (MkWt o [], c) = Ok (None, (MkWt (o ++ bs) [], c')).
(** In protocol state [c], [op] positioned before [bs] returns [a] without error and leaves the
    rest unread, for every chunking. *)
Definition reads {A} (c : cstate) (op : rop cr A) (bs : bytes) (a : A) (c' : cstate) : Prop :=
  forall r rest, benign r -> content r = bs ++ rest ->
  exists r', op (r, c) = Ok (a, None, (r', c')) /\ benign r' /\ content r' = rest.
(** No boolean field header is pending, on the writing / reading side. *)
Definition wr_idle (c : cstate) : Prop := booleanField c = None.
Definition rd_idle (c : cstate) : Prop := boolValueIsNotNull c = false.
(** What [w] writes in any idle state, [rd] reads back as [a] in any idle state, neither
    disturbing the field numbering. *)
Definition round_trip {A} (w : wop cw) (rd : rop cr A) (a : A) : Prop :=
  exists bs, forall cw cr, wr_idle cw -> rd_idle cr -> emits cw w bs cw /\ reads cr rd bs a cr.

Lemma emits_cenc : forall c op bs c', cenc c op bs c' -> emits c op bs c'.
Proof.
  intros c op bs c' H o. destruct (H (MkWt o [], c) eq_refl eq_refl) as ([w1 c1] & R & V & E).
  cbn in V, E. subst. exact R.
Qed.

(** ** C13 *)
Lemma C13_aux :
  (forall n, in_s 32 n -> in_s 32 (int32ToZigzag n) /\
     wrapu 32 (int32ToZigzag n) = zz n /\ zigzagToInt32 (int32ToZigzag n) = n) /\
  (forall u, in_s 32 u -> in_s 32 (zigzagToInt32 u) /\ int32ToZigzag (zigzagToInt32 u) = u) /\
  (forall n, in_s 64 n -> in_s 64 (int64ToZigzag n) /\
     wrapu 64 (int64ToZigzag n) = zz n /\ zigzagToInt64 (int64ToZigzag n) = n) /\
  (forall u, in_s 64 u -> in_s 64 (zigzagToInt64 u) /\ int64ToZigzag (zigzagToInt64 u) = u) /\
  (forall n m, Z.abs n < Z.abs m -> zz n < zz m).
Proof.
  assert (On : forall w u, 0 < w -> in_s w u -> exists n, in_s w n /\ u = wraps w (zz n)).
  { intros w u W H. destruct (zz_onto w (u mod 2 ^ w)) as (n & Hn & E); [assumption| |].
    - unfold in_u. apply Z.mod_pos_bound, Z.pow_pos_nonneg; lia.
    - exists n. split; [assumption|]. rewrite E, wraps_mod by lia. symmetry. apply wraps_id; assumption. }
  assert (U : forall w n, 0 < w -> in_s w n -> wrapu w (wraps w (zz n)) = zz n).
  { intros w n W H. unfold wrapu. rewrite wraps_cong by lia. apply Z.mod_small, zz_range; assumption. }
  split; [|split; [|split; [|split]]].
  - intros n H. rewrite zz32 by assumption. split; [apply wraps_range; lia|].
    split; [apply U; [lia|assumption]|apply unzz32, H].
  - intros u H. destruct (On 32 u) as (n & Hn & ->); [lia|assumption|].
    rewrite unzz32 by assumption. split; [assumption|apply zz32, Hn].
  - intros n H. rewrite zz64 by assumption. split; [apply wraps_range; lia|].
    split; [apply U; [lia|assumption]|apply unzz64, H].
  - intros u H. destruct (On 64 u) as (n & Hn & ->); [lia|assumption|].
    rewrite unzz64 by assumption. split; [assumption|apply zz64, Hn].
  - intros n m H. unfold zz. destruct (n <? 0) eqn:?, (m <? 0) eqn:?; lia.
Qed.
(** The codes are int32/int64 values whose unsigned reading is [zz n], the position of [n] in
    0, -1, 1, -2, 2, ...; the two maps are inverse to each other. *)
Theorem C13_zigzag_bijection :
  (forall n, in_s 32 n -> in_s 32 (int32ToZigzag n) /\
     wrapu 32 (int32ToZigzag n) = zz n /\ zigzagToInt32 (int32ToZigzag n) = n) /\
  (forall u, in_s 32 u -> in_s 32 (zigzagToInt32 u) /\ int32ToZigzag (zigzagToInt32 u) = u) /\
  (forall n, in_s 64 n -> in_s 64 (int64ToZigzag n) /\
     wrapu 64 (int64ToZigzag n) = zz n /\ zigzagToInt64 (int64ToZigzag n) = n) /\
  (forall u, in_s 64 u -> in_s 64 (zigzagToInt64 u) /\ int64ToZigzag (zigzagToInt64 u) = u) /\
  (forall n m, Z.abs n < Z.abs m -> zz n < zz m).
Proof. exact C13_aux. Qed.
Print Assumptions C13_zigzag_bijection.
Example C13_case :
  map int32ToZigzag [0; -1; 1; -2; 2147483647; -2147483648] = [0; 1; 2; 3; -2; -1] /\
  map zigzagToInt64 [0; 1; 2; 3; -2; -1] = [0; -1; 1; -2; 2 ^ 63 - 1; - 2 ^ 63].
Proof. split; vm_compute; reflexivity. Qed.

(** ** C14 *)
(** [bs] has as few base-128 digits as [u] needs. *)
Definition shortest (bs : bytes) (u : Z) : Prop :=
  (1 <= length bs)%nat /\ u < 128 ^ Z.of_nat (length bs) /\
  (length bs = 1%nat \/ 128 ^ (Z.of_nat (length bs) - 1) <= u).
Lemma shortest_sc : forall u, in_u 64 u -> shortest (sc_var u) u.
Proof.
  intros u H. unfold in_u in H. destruct (uvar_size 10 u) as (A & B & C).
  - change (128 ^ Z.of_nat 10) with (2 ^ 70). lia.
  - lia.
  - unfold shortest, sc_var. split; [assumption|]. split; [assumption|].
    destruct B as [-> |B]; [left; reflexivity|right; assumption].
Qed.
Lemma C14_aux : forall c,
  (forall v, in_s 32 v -> exists bs, emits c (writeVarint32 v) bs c /\
     reads c readVarint32 bs v c /\ (length bs <= 5)%nat /\ shortest bs (v mod 2 ^ 32)) /\
  (forall v, in_s 64 v -> exists bs, emits c (writeVarint64 v) bs c /\
     reads c readVarint64 bs v c /\ (length bs <= 10)%nat /\ shortest bs (v mod 2 ^ 64)).
Proof.
  intro c. split; intros v H.
  - assert (U : in_u 32 (v mod 2 ^ 32)) by (unfold in_u; apply Z.mod_pos_bound; lia).
    assert (E : wraps 32 (v mod 2 ^ 32) = v) by (rewrite wraps_mod by lia; apply wraps_id; [lia|assumption]).
    exists (sc_var (v mod 2 ^ 32)). split; [|split; [|split]].
    + apply emits_cenc. rewrite <- E at 1. apply cenc_varint32, U.
    + pose proof (crd_varint32 c _ (in_u_32_64 _ U)) as D. rewrite E in D. exact D.
    + unfold sc_var. rewrite (uvar_bound 5 10); [apply uvar_length| |lia].
      unfold in_u in U. change (128 ^ Z.of_nat 5) with (2 ^ 35). lia.
    + apply shortest_sc, in_u_32_64, U.
  - assert (U : in_u 64 (v mod 2 ^ 64)) by (unfold in_u; apply Z.mod_pos_bound; lia).
    assert (E : wraps 64 (v mod 2 ^ 64) = v) by (rewrite wraps_mod by lia; apply wraps_id; [lia|assumption]).
    exists (sc_var (v mod 2 ^ 64)). split; [|split; [|split]].
    + apply emits_cenc. rewrite <- E at 1. apply cenc_varint64, U.
    + pose proof (crd_varint64 c _ U) as D. rewrite E in D. exact D.
    + apply uvar_length.
    + apply shortest_sc, U.
Qed.
Theorem C14_varint_round_trip : forall c,
  (forall v, in_s 32 v -> exists bs, emits c (writeVarint32 v) bs c /\
     reads c readVarint32 bs v c /\ (length bs <= 5)%nat /\ shortest bs (v mod 2 ^ 32)) /\
  (forall v, in_s 64 v -> exists bs, emits c (writeVarint64 v) bs c /\
     reads c readVarint64 bs v c /\ (length bs <= 10)%nat /\ shortest bs (v mod 2 ^ 64)).
Proof. exact C14_aux. Qed.
Print Assumptions C14_varint_round_trip.
Example C14_case :
  writeVarint32 300 (MkWt [] [], cinit) = Ok (None, (MkWt [172; 2] [], cinit)) /\
  writeVarint64 (-1) (MkWt [] [], cinit) =
    Ok (None, (MkWt [255; 255; 255; 255; 255; 255; 255; 255; 255; 1] [], cinit)) /\
  readVarint32 ([([172], None); ([2; 77], None)], cinit) = Ok (300, None, ([([77], None)], cinit)).
Proof. repeat split; vm_compute; reflexivity. Qed.

(** ** C15 *)
Lemma rt_of : forall A w (rd : rop cr A) bs a,
  (forall c, wr_idle c -> cenc c w bs c) -> (forall c, rd_idle c -> crd c rd bs a c) ->
  round_trip w rd a.
Proof. intros A w rd bs a H1 H2. exists bs. intros c1 c2 W R. split; [apply emits_cenc|apply H2]; auto. Qed.
Lemma C15_aux :
  (forall b, round_trip (wBool compactW b) (rBool compactR) b) /\
  (forall v, in_u 8 v -> round_trip (wByte compactW v) (rByte compactR) v) /\
  (forall v, in_s 16 v -> round_trip (wI16 compactW v) (rI16 compactR) v) /\
  (forall v, in_s 32 v -> round_trip (wI32 compactW v) (rI32 compactR) v) /\
  (forall v, in_s 64 v -> round_trip (wI64 compactW v) (rI64 compactR) v) /\
  (forall v, in_u 64 v -> round_trip (wDouble compactW v) (rDouble compactR) v) /\
  (forall s, Z.of_nat (length s) < 2 ^ 31 -> round_trip (wString compactW s) (rString compactR) s) /\
  (forall s, Z.of_nat (length s) < 2 ^ 31 -> round_trip (wBinary compactW s) (rBinary compactR) s).
Proof.
  repeat split; intros.
  - eapply rt_of; intros c I; [apply cenc_bool, I|apply crd_bool, I].
  - eapply rt_of; intros c I; [apply cenc_byte|apply crd_byte].
  - eapply rt_of; intros c I; [apply cenc_i16, H|apply crd_i16, H].
  - eapply rt_of; intros c I; [apply cenc_i32, H|apply crd_i32, H].
  - eapply rt_of; intros c I; [apply cenc_i64, H|apply crd_i64, H].
  - eapply rt_of; intros c I; [apply cenc_double|apply crd_double, H].
  - eapply rt_of; intros c I; [apply cenc_string, H|apply crd_string, H].
  - eapply rt_of; intros c I; [apply cenc_binary, H|apply crd_binary, H].
Qed.
Theorem C15_compact_scalar_round_trip :
  (forall b, round_trip (wBool compactW b) (rBool compactR) b) /\
  (forall v, in_u 8 v -> round_trip (wByte compactW v) (rByte compactR) v) /\
  (forall v, in_s 16 v -> round_trip (wI16 compactW v) (rI16 compactR) v) /\
  (forall v, in_s 32 v -> round_trip (wI32 compactW v) (rI32 compactR) v) /\
  (forall v, in_s 64 v -> round_trip (wI64 compactW v) (rI64 compactR) v) /\
  (forall v, in_u 64 v -> round_trip (wDouble compactW v) (rDouble compactR) v) /\
  (forall s, Z.of_nat (length s) < 2 ^ 31 -> round_trip (wString compactW s) (rString compactR) s) /\
  (forall s, Z.of_nat (length s) < 2 ^ 31 -> round_trip (wBinary compactW s) (rBinary compactR) s).
Proof. exact C15_aux. Qed.
Print Assumptions C15_compact_scalar_round_trip.
Example C15_case : wr_idle cinit /\ rd_idle cinit /\
  wI16 compactW (-32768) (MkWt [1] [], cinit) = Ok (None, (MkWt [1; 255; 255; 3] [], cinit)) /\
  rI16 compactR ([([255], None); ([255; 3; 8], None)], cinit) =
    Ok (-32768, None, ([([8], None)], cinit)).
Proof. repeat split; vm_compute; reflexivity. Qed.

(** ** C16 *)
Lemma C16_aux :
  (forall c b, wr_idle c -> emits c (wBool compactW b) [if b then 1 else 2] c) /\
  (forall c v, emits c (wByte compactW v) [v] c) /\
  (forall c v, in_s 16 v -> emits c (wI16 compactW v) (sc_var (zz v)) c) /\
  (forall c v, in_s 32 v -> emits c (wI32 compactW v) (sc_var (zz v)) c) /\
  (forall c v, in_s 64 v -> emits c (wI64 compactW v) (sc_var (zz v)) c) /\
  (forall c v, emits c (wDouble compactW v) (le 8 v) c) /\
  (forall c s, Z.of_nat (length s) < 2 ^ 31 ->
     emits c (wString compactW s) (sc_var (Z.of_nat (length s)) ++ s) c) /\
  (forall c s, Z.of_nat (length s) < 2 ^ 31 ->
     emits c (wBinary compactW s) (sc_var (Z.of_nat (length s)) ++ s) c) /\
  (forall c name t seqid, 0 <= t < 8 -> in_s 32 seqid -> Z.of_nat (length name) < 2 ^ 31 ->
     emits c (wMessageBegin compactW name t seqid) (sc_message name t seqid) c) /\
  (forall c t n, wire_type t -> 0 <= n < 2 ^ 31 -> emits c (wListBegin compactW t n) (sc_list t n) c) /\
  (forall c t n, wire_type t -> 0 <= n < 2 ^ 31 -> emits c (wSetBegin compactW t n) (sc_list t n) c) /\
  (forall c k v n, wire_type k -> wire_type v -> 0 <= n < 2 ^ 31 ->
     emits c (wMapBegin compactW k v n) (sc_map k v n) c) /\
  (forall c name t id, in_s 16 id -> wire_type t -> t <> BOOL ->
     emits c (wFieldBegin compactW name t id) (sc_field (lastFieldId c) (sc_type t) id)
       (set_last c (lastField c) id)) /\
  (forall c name id b, in_s 16 id -> wr_idle c ->
     emits c (wFieldBegin compactW name BOOL id >>> wBool compactW b)
       (sc_field (lastFieldId c) (if b then 1 else 2) id) (set_last c (lastField c) id)) /\
  (forall c, emits c (wFieldStop compactW) [0] c) /\
  (forall c v, wf v -> wr_idle c -> emits c (write_val compactW v) (sc_val v) c).
Proof.
  repeat match goal with |- _ /\ _ => split end; intros.
  - apply emits_cenc, (cenc_bool c b), H.
  - apply emits_cenc, cenc_byte.
  - apply emits_cenc, cenc_i16, H.
  - apply emits_cenc, cenc_i32, H.
  - apply emits_cenc, cenc_i64, H.
  - apply emits_cenc, cenc_double.
  - apply emits_cenc, cenc_string, H.
  - apply emits_cenc, cenc_binary, H.
  - apply emits_cenc, cenc_message; assumption.
  - apply emits_cenc, cenc_list; assumption.
  - apply emits_cenc, cenc_set; assumption.
  - apply emits_cenc, cenc_map; assumption.
  - apply emits_cenc. destruct c. apply cenc_field; assumption.
  - apply emits_cenc. destruct c. unfold wr_idle in *. cbn in *. subst.
    apply (cenc_bool_field lastField lastFieldId boolValue boolValueIsNotNull name id b). assumption.
  - apply emits_cenc, cenc_stop.
  - apply emits_cenc. destruct c. unfold wr_idle in *. cbn in *. subst. apply cenc_val, H.
Qed.
(** Every write call of the interface and every value: the bytes of the published encoding
    (CompactSpec.v).  The bytes of a field header depend on the previous id, here
    [lastFieldId c]; a struct starts from 0 and restores the enclosing one ([sc_val]). *)
Theorem C16_compact_wire_layout :
  (forall c b, wr_idle c -> emits c (wBool compactW b) [if b then 1 else 2] c) /\
  (forall c v, emits c (wByte compactW v) [v] c) /\
  (forall c v, in_s 16 v -> emits c (wI16 compactW v) (sc_var (zz v)) c) /\
  (forall c v, in_s 32 v -> emits c (wI32 compactW v) (sc_var (zz v)) c) /\
  (forall c v, in_s 64 v -> emits c (wI64 compactW v) (sc_var (zz v)) c) /\
  (forall c v, emits c (wDouble compactW v) (le 8 v) c) /\
  (forall c s, Z.of_nat (length s) < 2 ^ 31 ->
     emits c (wString compactW s) (sc_var (Z.of_nat (length s)) ++ s) c) /\
  (forall c s, Z.of_nat (length s) < 2 ^ 31 ->
     emits c (wBinary compactW s) (sc_var (Z.of_nat (length s)) ++ s) c) /\
  (forall c name t seqid, 0 <= t < 8 -> in_s 32 seqid -> Z.of_nat (length name) < 2 ^ 31 ->
     emits c (wMessageBegin compactW name t seqid) (sc_message name t seqid) c) /\
  (forall c t n, wire_type t -> 0 <= n < 2 ^ 31 -> emits c (wListBegin compactW t n) (sc_list t n) c) /\
  (forall c t n, wire_type t -> 0 <= n < 2 ^ 31 -> emits c (wSetBegin compactW t n) (sc_list t n) c) /\
  (forall c k v n, wire_type k -> wire_type v -> 0 <= n < 2 ^ 31 ->
     emits c (wMapBegin compactW k v n) (sc_map k v n) c) /\
  (forall c name t id, in_s 16 id -> wire_type t -> t <> BOOL ->
     emits c (wFieldBegin compactW name t id) (sc_field (lastFieldId c) (sc_type t) id)
       (set_last c (lastField c) id)) /\
  (forall c name id b, in_s 16 id -> wr_idle c ->
     emits c (wFieldBegin compactW name BOOL id >>> wBool compactW b)
       (sc_field (lastFieldId c) (if b then 1 else 2) id) (set_last c (lastField c) id)) /\
  (forall c, emits c (wFieldStop compactW) [0] c) /\
  (forall c v, wf v -> wr_idle c -> emits c (write_val compactW v) (sc_val v) c).
Proof. exact C16_aux. Qed.
Print Assumptions C16_compact_wire_layout.
Definition csample : tval :=
  VStruct [(1, VList STRUCT [VStruct [(7, VBool true)]; VStruct []]);
           (-3, VMap STRING SET [(VStr [104; 105], VSet DOUBLE [VDouble (2 ^ 63)])]);
           (300, VI64 (- 2 ^ 63)); (302, VBool true)].
Example C16_case : wf csample /\ wr_idle cinit /\
  write_val compactW csample (MkWt [] [], cinit) =
  Ok (None, (MkWt [25; 44; 113; 0; 0; 11; 5; 1; 138; 2; 104; 105; 23; 0; 0; 0; 0; 0; 0; 0; 128;
                   6; 216; 4; 255; 255; 255; 255; 255; 255; 255; 255; 255; 1; 33; 0] [], cinit)).
Proof. split; [concrete|]. split; [reflexivity|]. vm_compute. reflexivity. Qed.

(** ** C17 *)
(** The bytes of a run of headers (type, id) after the field [last]. *)
Fixpoint sc_headers (last : Z) (hs : list (Z * Z)) : bytes :=
  match hs with
  | [] => []
  | (t, id) :: hs' => sc_field last (sc_type t) id ++ sc_headers id hs'
  end.
Definition header_ok (h : Z * Z) : Prop := wire_type (fst h) /\ fst h <> BOOL /\ in_s 16 (snd h).
Definition write_headers (hs : list (Z * Z)) : wop cw :=
  wseqs (map (fun h => wFieldBegin compactW [] (fst h) (snd h)) hs).
(** Read [n] headers, stopping at the first error. *)
Definition read_headers (n : nat) : hop cr (list (bytes * Z * Z)) :=
  hrepeat n (hlift (rFieldBegin compactR)).
Definition headers_round_trip (hs : list (Z * Z)) : Prop :=
  forall cw cr, lastFieldId cw = lastFieldId cr ->
  exists bs cw' cr', emits cw (write_headers hs) bs cw' /\
    forall r rest, benign r -> content r = bs ++ rest ->
    exists r', read_headers (length hs) (r, cr) =
                 Ok (inl (map (fun h => ([], fst h, snd h)) hs), (r', cr')) /\
               benign r' /\ content r' = rest.
Lemma C17_aux : forall hs, (forall h, In h hs -> header_ok h) -> headers_round_trip hs.
Proof.
  intros hs H. unfold headers_round_trip.
  assert (W : forall hs, (forall h, In h hs -> header_ok h) -> forall c, exists c',
            cenc c (write_headers hs) (sc_headers (lastFieldId c) hs) c').
  { clear. induction hs as [|[t id] hs IH]; intros H c; unfold write_headers; cbn [map wseqs sc_headers].
    - exists c. apply enc_nop.
    - destruct (H _ (or_introl eq_refl)) as (T & NB & I). cbn [fst snd] in *.
      destruct c as [stk last bf bv nn].
      destruct (IH (fun h Hh => H h (or_intror Hh)) (MkC stk id bf bv nn)) as [c' E].
      exists c'. eapply enc_seq; [apply cenc_field; assumption|exact E]. }
  assert (Rd : forall hs, (forall h, In h hs -> header_ok h) -> forall c, exists c', 
            tri c (read_headers (length hs)) (sc_headers (lastFieldId c) hs)
              (map (fun h => ([], fst h, snd h)) hs) (eq c')).
  { clear. induction hs as [|[t id] hs IH]; intros H c; unfold read_headers; cbn [map length hrepeat sc_headers].
    - exists c. apply tri_ret.
    - destruct (H _ (or_introl eq_refl)) as (T & NB & I). cbn [fst snd] in *.
      destruct (IH (fun h Hh => H h (or_intror Hh)) (set_last c (lastField c) id)) as [c' E].
      exists c'. pose proof (crd_field c t id (lastFieldId c) I T (or_introl eq_refl)) as D.
      replace (t =? BOOL) with false in D by lia.
      eapply tri_bind; [apply tri_crd; exact D|]. intros c1 <-.
      eapply tri_bind0; [exact E|]. intros c2 <-. apply tri_ret. }
  intros cw cr E. destruct (W hs H cw) as [cw' Ew]. destruct (Rd hs H cr) as [cr' Er].
  exists (sc_headers (lastFieldId cw) hs), cw', cr'. split; [apply emits_cenc, Ew|].
  intros r rest B X. rewrite E in X. destruct (Er r rest B X) as (r' & c' & R & B' & <- & X'). eauto.
Qed.
Theorem C17_field_headers_round_trip : forall hs,
  (forall h, In h hs -> header_ok h) -> headers_round_trip hs.
Proof. exact C17_aux. Qed.
Print Assumptions C17_field_headers_round_trip.
Example C17_case :
  let hs := [(I32, 1); (STRING, 16); (MAP, 32); (LIST, 5); (BYTE, -32768); (STRUCT, -32767)] in
  (forall h, In h hs -> header_ok h) /\
  exists bs cw', write_headers hs (MkWt [] [], cinit) = Ok (None, (MkWt bs [], cw')) /\
  exists cr', read_headers 6 ([(bs, None)], cinit) =
     Ok (inl [([], I32, 1); ([], STRING, 16); ([], MAP, 32); ([], LIST, 5); ([], BYTE, -32768);
              ([], STRUCT, -32767)], ([], cr')).
Proof.
  split.
  - intros h Hh. cbn in Hh.
    repeat (destruct Hh as [<-|Hh]; [unfold header_ok; cbn [fst snd]; concrete|]). destruct Hh.
  - eexists _, _. split; [vm_compute; reflexivity|]. eexists. vm_compute; reflexivity.
Qed.

(** ** C18 *)
(** Write and read back a boolean field as the generated code does: header, then value. *)
Definition read_bool_field : hop cr (bytes * Z * Z * bool) :=
  h <-- hlift (rFieldBegin compactR) ;; b <-- hlift (rBool compactR) ;; hret (h, b).
Theorem C18_bool_field_refuted : exists id b bs c',
  in_s 16 id /\
  emits cinit (wFieldBegin compactW [] BOOL id >>> wBool compactW b) bs c' /\
  read_bool_field ([(bs, None)], cinit) = Ok (inr (EProtocol UNKNOWN_PROTOCOL_EXCEPTION), ([], cinit)).
Proof.
  exists 1, false, [18], (set_last cinit [] 1). split; [concrete|].
  split; [|vm_compute; reflexivity].
  apply (proj1 (proj2 (proj2 (proj2 (proj2 (proj2 (proj2 (proj2 (proj2 (proj2 (proj2 (proj2 (proj2
    (proj2 C16_compact_wire_layout)))))))))))))); [concrete|reflexivity].
Qed.
Print Assumptions C18_bool_field_refuted.
(** What holds: a true field, with any id, in any position.  Missing: false fields ... *)
Lemma C18_aux : forall id cw cr, in_s 16 id -> wr_idle cw -> lastFieldId cw = lastFieldId cr ->
  exists bs cw' cr', emits cw (wFieldBegin compactW [] BOOL id >>> wBool compactW true) bs cw' /\
    forall r rest, benign r -> content r = bs ++ rest ->
    exists r', read_bool_field (r, cr) = Ok (inl ([], BOOL, id, true), (r', cr')) /\
               benign r' /\ content r' = rest.
Proof.
  intros id cw cr I W E.
  exists (sc_field (lastFieldId cw) 1 id), (set_last cw (lastField cw) id),
    (MkC (lastField cr) id (booleanField cr) true false).
  split; [apply C16_aux; assumption|].
  intros r rest B X. rewrite E in X.
  pose proof (crd_field cr BOOL id (lastFieldId cr) I) as D.
  change (BOOL =? BOOL) with true in D. change (sc_type BOOL) with 1 in D.
  assert (T : tri cr read_bool_field (sc_field (lastFieldId cr) 1 id ++ []) ([], BOOL, id, true)
                (eq (MkC (lastField cr) id (booleanField cr) true false))).
  { eapply tri_bind; [apply tri_crd, D; [unfold wire_type; cbn; tauto|left; reflexivity]|].
    intros c1 <-. eapply tri_bind0; [apply tri_bool_true; reflexivity|]. intros c2 <-. apply tri_ret. }
  rewrite app_nil_r in T. destruct (T r rest B X) as (r' & c' & R & B' & <- & X'). eauto.
Qed.
Theorem C18_bool_field_partial : forall id cw cr,
  in_s 16 id -> wr_idle cw -> lastFieldId cw = lastFieldId cr ->
  exists bs cw' cr', emits cw (wFieldBegin compactW [] BOOL id >>> wBool compactW true) bs cw' /\
    forall r rest, benign r -> content r = bs ++ rest ->
    exists r', read_bool_field (r, cr) = Ok (inl ([], BOOL, id, true), (r', cr')) /\
               benign r' /\ content r' = rest.
Proof. exact C18_aux. Qed.
Print Assumptions C18_bool_field_partial.
(** ... which fail for every id and every state. *)
Theorem C18_false_field_always_fails : forall last id r rest c,
  in_s 16 id -> benign r -> content r = sc_field last 2 id ++ rest ->
  exists e s', read_bool_field (r, c) = Ok (inr e, s').
Proof.
  intros last id r rest c I B X. unfold read_bool_field, hbind, hlift. cbn [rFieldBegin compactR].
  unfold cReadFieldBegin, sc_field in *. destruct (short last id) eqn:Sh.
  - unfold short in Sh. destruct (crd_byte c _ r _ B X) as (r1 & R1 & B1 & X1). rewrite R1. cbn [obind].
    rewrite land_15, land_240. replace (((id - last) * 16 + 2) mod 16) with 2 by lia.
    replace (((id - last) * 16 + 2) / 16 mod 16) with (id - last) by lia.
    change (2 =? STOP) with false. cbn iota.
    rewrite (wraps_id 16 (id - last)) by (unfold in_s; lia).
    replace (id - last =? 0) with false by lia. cbn [obind]. change (getTType 2) with (STOP, Some (EOther 0)).
    cbn. eauto.
  - change (2 :: sc_int id) with ([2] ++ sc_int id) in X. rewrite <- app_assoc in X.
    destruct (crd_byte c _ r _ B X) as (r1 & R1 & B1 & X1). rewrite R1. cbn [obind].
    change (Z.land 2 15 =? STOP) with false.
    change (wraps 16 (Z.shiftr (Z.land 2 240) 4) =? 0) with true. cbn iota.
    destruct (crd_i16 c id I r1 _ B1 X1) as (r2 & R2 & B2 & X2). rewrite R2. cbn [obind].
    change (getTType (Z.land 2 15)) with (STOP, Some (EOther 0)). cbn. eauto.
Qed.
Print Assumptions C18_false_field_always_fails.
Example C18_case :
  (wFieldBegin compactW [] BOOL 20 >>> wBool compactW true) (MkWt [] [], cinit) =
    Ok (None, (MkWt [1; 40] [], set_last cinit [] 20)) /\
  read_bool_field ([([1], None); ([40; 5], None)], cinit) =
    Ok (inl ([], BOOL, 20, true), ([([5], None)], MkC [] 20 None true false)).
Proof. split; vm_compute; reflexivity. Qed.

(** ** C24 (with C19) *)
Lemma no_empty_same : forall v, no_empty_map v = true -> untyped_empty v = v.
Proof.
  induction v using tval_ind'; intros E; try reflexivity; cbn [no_empty_map untyped_empty] in *.
  - rewrite forallb_forall in E. rewrite Forall_forall in H. f_equal.
    rewrite <- (map_id l) at 2. apply map_ext_in. auto.
  - rewrite forallb_forall in E. rewrite Forall_forall in H. f_equal.
    rewrite <- (map_id l) at 2. apply map_ext_in. auto.
  - apply andb_true_iff in E. destruct E as [E1 E]. destruct l as [|kv l']; [discriminate|].
    rewrite forallb_forall in E. rewrite Forall_forall in H. f_equal.
    set (l := kv :: l') in *. rewrite <- (map_id l) at 2. apply map_ext_in.
    intros [k x] Hx. specialize (E _ Hx). apply andb_true_iff in E. destruct (H _ Hx).
    cbn [fst snd] in *. f_equal; intuition.
  - rewrite forallb_forall in E. rewrite Forall_forall in H. f_equal.
    rewrite <- (map_id fs) at 2. apply map_ext_in. intros [i x] Hx. cbn [fst snd]. f_equal.
    apply (H _ Hx), (E _ Hx).
Qed.
Lemma max_list_le : forall l n, (max_list l <= n)%nat -> forall x, In x l -> (x <= n)%nat.
Proof.
  induction l as [|y l IH]; intros n H x Hx; [destruct Hx|]. cbn in H. fold (max_list l) in H.
  destruct Hx as [<-|Hx]; [lia|apply IH; [lia|assumption]].
Qed.
Lemma shallow_apart : forall v, (sdepth v <= 2)%nat -> ids_apart v = true.
Proof.
  induction v using tval_ind'; intros D; try reflexivity.
  - cbn [sdepth ids_apart] in *. apply forallb_forall. rewrite Forall_forall in H. intros x Hx.
    apply H; [assumption|]. apply (max_list_le _ _ D), in_map, Hx.
  - cbn [sdepth ids_apart] in *. apply forallb_forall. rewrite Forall_forall in H. intros x Hx.
    apply H; [assumption|]. apply (max_list_le _ _ D), in_map, Hx.
  - cbn [sdepth ids_apart] in *. apply forallb_forall. rewrite Forall_forall in H. intros x Hx.
    destruct (H x Hx).
    pose proof (max_list_le _ _ D _ (in_map (fun kv => Nat.max (sdepth (fst kv)) (sdepth (snd kv))) _ _ Hx)) as Q.
    cbn beta in Q. apply andb_true_iff. split; [apply H0|apply H1]; lia.
  - rewrite ids_apart_struct. cbn [sdepth] in D.
    assert (D' : forall x, In x fs -> (sdepth (snd x) <= 1)%nat).
    { intros x Hx. apply (max_list_le (map (fun f => sdepth (snd f)) fs)); [lia|].
      apply (in_map (fun f => sdepth (snd f))), Hx. }
    clear D. rewrite Forall_forall in H.
    assert (G : forall last, fields_apart true last fs = true).
    { induction fs as [|[id v] fs IH]; intros last; [reflexivity|]. cbn [fields_apart].
      assert (Dv := D' (id, v) (or_introl eq_refl)). cbn [snd] in Dv.
      replace (sdepth v <=? 1)%nat with true by lia. rewrite IH.
      - assert (A := H (id, v) (or_introl eq_refl)). cbn [snd] in A. rewrite A by lia. reflexivity.
      - intros; apply H; [right; assumption|assumption].
      - intros; apply D'; right; assumption. }
    apply G.
Qed.

(** Writing [v] emits its published encoding, and reading that back gives [v'], stopping
    exactly at the end, for any chunking, any sufficient fuel, any idle states. *)
Definition value_reads_as (v v' : tval) : Prop :=
  (forall c, wr_idle c -> emits c (write_val compactW v) (sc_val v) c) /\
  forall f r rest c, (need v <= f)%nat -> rd_idle c -> benign r -> content r = sc_val v ++ rest ->
  exists r' c', read_val compactR f (vtype v) (r, c) = Ok (inl v', (r', c')) /\ benign r' /\
                content r' = rest /\ rd_idle c'.
Lemma C24_aux : forall v, wf v -> no_false_field v = true -> ids_apart v = true ->
  value_reads_as v (untyped_empty v).
Proof.
  intros v W NF AP. split; [intros; apply C16_aux; assumption|].
  intros f r rest c Hf I B X. destruct (tri_val v W NF AP f c Hf I r rest B X)
    as (r' & c' & R & B' & A & X'). exists r', c'. repeat split; auto. apply A.
Qed.


(** ** C19 *)
(** Three levels of structs: the second field, 5, of the outer struct comes back as 2. *)
Theorem C19_nested_ids_refuted : exists v bs c',
  wf v /\ no_false_field v = true /\ no_empty_map v = true /\
  v = VStruct [(4, VStruct [(1, VStruct [(1, VByte 7)])]); (5, VByte 8)] /\
  write_val compactW v (MkWt [] [], cinit) = Ok (None, (MkWt bs [], cinit)) /\
  read_val compactR 20 STRUCT ([(bs, None)], cinit) =
    Ok (inl (VStruct [(4, VStruct [(1, VStruct [(1, VByte 7)])]); (2, VByte 8)]), ([], c')).
Proof.
  eexists _, _, _. split; [|split; [|split; [|split; [reflexivity|]]]].
  2-3: vm_compute; reflexivity.
  - concrete.
  - split; [vm_compute; reflexivity|vm_compute; reflexivity].
Qed.
Print Assumptions C19_nested_ids_refuted.
(** What holds: structs nested at most two deep keep all their ids, in any order, ascending or
    not; deeper ones do when no field header following a doubly nested struct uses the short
    form ([ids_apart]).  Missing: the other deep nestings.  (False boolean fields and empty maps
    are left to C18 and C23.) *)
Lemma C19_aux : forall v, wf v -> no_false_field v = true -> no_empty_map v = true ->
  (sdepth v <= 2)%nat \/ ids_apart v = true -> value_reads_as v v.
Proof.
  intros v W NF NE D. rewrite <- (no_empty_same v NE) at 2. apply C24_aux; auto.
  destruct D; [apply shallow_apart|]; assumption.
Qed.
Theorem C19_nested_ids_partial : forall v,
  wf v -> no_false_field v = true -> no_empty_map v = true ->
  (sdepth v <= 2)%nat \/ ids_apart v = true -> value_reads_as v v.
Proof. exact C19_aux. Qed.
Print Assumptions C19_nested_ids_partial.
Definition nested : tval :=
  VStruct [(5, VStruct [(1, VByte 1); (16, VByte 2); (17, VByte 3)]); (6, VByte 4);
           (3, VStruct [(2, VByte 5)]); (-1, VByte 6); (0, VBool true)].
Definition nested3 : tval :=
  VStruct [(1, VStruct [(1, VStruct [(1, VByte 7)])]); (20, VByte 8); (3, VByte 9)].
Example C19_case :
  (wf nested /\ no_false_field nested = true /\ no_empty_map nested = true /\
   (sdepth nested <= 2)%nat) /\
  (wf nested3 /\ no_false_field nested3 = true /\ no_empty_map nested3 = true /\
   sdepth nested3 = 3%nat /\ ids_apart nested3 = true).
Proof. split; concrete; cbn; lia. Qed.

(** ** C20 *)
Definition ONEWAY_TYPE : Z := 4.
Theorem C20_oneway_refuted : exists name seqid bs,
  wMessageBegin compactW name ONEWAY_TYPE seqid (MkWt [] [], cinit) =
    Ok (None, (MkWt bs [], cinit)) /\
  rMessageBegin compactR ([(bs, None)], cinit) = Ok ((name, 0, seqid), None, ([], cinit)).
Proof. exists [112], 9, [130; 129; 9; 1; 112]. split; vm_compute; reflexivity. Qed.
Print Assumptions C20_oneway_refuted.
(** What holds: the other three types (and the unused 0), every name and sequence id.
    Missing: ONEWAY, which always comes back as 0. *)
Lemma C20_aux : forall name t seqid cw cr,
  0 <= t <= ONEWAY_TYPE -> in_s 32 seqid -> Z.of_nat (length name) < 2 ^ 31 ->
  exists bs, emits cw (wMessageBegin compactW name t seqid) bs cw /\
    reads cr (rMessageBegin compactR) bs (name, (if t =? ONEWAY_TYPE then 0 else t), seqid) cr.
Proof.
  intros name t seqid cw cr T S N. unfold ONEWAY_TYPE in *. exists (sc_message name t seqid). split.
  - apply C16_aux; [lia|assumption|assumption].
  - assert (D := crd_message cr name t seqid ltac:(lia) S N).
    replace (t mod 4) with (if t =? 4 then 0 else t) in D by (destruct (t =? 4) eqn:?; lia). exact D.
Qed.
Theorem C20_message_round_trip_partial : forall name t seqid cw cr,
  0 <= t <= ONEWAY_TYPE -> in_s 32 seqid -> Z.of_nat (length name) < 2 ^ 31 ->
  exists bs, emits cw (wMessageBegin compactW name t seqid) bs cw /\
    reads cr (rMessageBegin compactR) bs (name, (if t =? ONEWAY_TYPE then 0 else t), seqid) cr.
Proof. exact C20_aux. Qed.
Print Assumptions C20_message_round_trip_partial.
Example C20_case :
  wMessageBegin compactW [97; 98] 3 (-2) (MkWt [] [], cinit) =
    Ok (None, (MkWt [130; 97; 254; 255; 255; 255; 15; 2; 97; 98] [], cinit)) /\
  rMessageBegin compactR ([([130; 97; 254; 255; 255; 255; 15; 2; 97; 98], None)], cinit) =
    Ok (([97; 98], 3, -2), None, ([], cinit)).
Proof. split; vm_compute; reflexivity. Qed.

Lemma C20_aux2 : forall b0 b1 rest r c, benign r -> content r = b0 :: b1 :: rest -> in_u 8 b1 ->
  b0 <> 130 \/ b1 mod 32 <> 1 ->
  exists v r', rMessageBegin compactR (r, c) = Ok (v, Some (EProtocol BAD_VERSION), (r', c)).
Proof.
  intros b0 b1 rest r c B X U H. cbn [rMessageBegin compactR]. unfold cReadMessageBegin.
  destruct (crd_byte c b0 r (b1 :: rest) B X) as (r1 & R1 & B1 & X1). rewrite R1. cbn [obind].
  destruct (Z.eqb_spec b0 COMPACT_PROTOCOL_ID) as [E|N]; cbn [negb]; [|eauto].
  destruct (crd_byte c b1 r1 rest B1 X1) as (r2 & R2 & B2 & X2). rewrite R2. cbn [obind].
  replace (Z.land b1 COMPACT_VERSION_MASK) with (b1 mod 32).
  - destruct (Z.eqb_spec (b1 mod 32) COMPACT_VERSION) as [E2|N2]; cbn [negb]; [|eauto].
    unfold COMPACT_PROTOCOL_ID, COMPACT_VERSION in *. lia.
  - change COMPACT_VERSION_MASK with (Z.ones 5). rewrite Z.land_ones by lia. reflexivity.
Qed.
(** A message that starts with another protocol id or another version is refused. *)
Theorem C20_foreign_message_refused : forall b0 b1 rest r c,
  benign r -> content r = b0 :: b1 :: rest -> in_u 8 b1 -> b0 <> 130 \/ b1 mod 32 <> 1 ->
  exists v r', rMessageBegin compactR (r, c) = Ok (v, Some (EProtocol BAD_VERSION), (r', c)).
Proof. exact C20_aux2. Qed.
Print Assumptions C20_foreign_message_refused.
Example C20_foreign_case :
  fst (fst (match rMessageBegin compactR ([([130; 98; 9; 1; 112], None)], cinit) with
            | Ok (_, e, s) => (e, s, 0) | _ => (None, ([], cinit), 1) end)) = Some (EProtocol BAD_VERSION) /\
  in_u 8 98 /\ 98 mod 32 <> 1.
Proof. split; [vm_compute; reflexivity|]. split; [concrete|]. cbn. lia. Qed.

(** ** C21 *)
Definition scalar (v : tval) : Prop :=
  match v with
  | VBool _ | VByte _ | VI16 _ | VI32 _ | VI64 _ | VDouble _ => True
  | _ => False
  end.
(** The string "abc" cut after "a" is read without an error. *)
Theorem C21_truncated_string_refuted : exists s p q,
  sc_string s = p ++ q /\ q <> [] /\
  rString compactR ([(p, None)], cinit) = Ok ([97; 0; 0], None, ([], cinit)).
Proof. exists [97; 98; 99], [3; 97], [98; 99]. split; [reflexivity|]. split; [discriminate|]. vm_compute. reflexivity. Qed.
Print Assumptions C21_truncated_string_refuted.
(** What holds: truncation inside a scalar is reported, and of a string inside its length
    prefix.  Missing: truncation inside the body of a string, which is never reported. *)
Lemma C21_aux :
  (forall v p q f r c, wf v -> scalar v -> sc_val v = p ++ q -> q <> [] -> rd_idle c ->
     benign r -> content r = p ->
     exists e s', read_val compactR (S f) (vtype v) (r, c) = Ok (inr e, s')) /\
  (forall n p q r c, 0 <= n -> sc_var n = p ++ q -> q <> [] -> benign r -> content r = p ->
     (exists a e s', rString compactR (r, c) = Ok (a, Some e, s')) /\
     (exists a e s', rBinary compactR (r, c) = Ok (a, Some e, s'))).
Proof.
  split.
  - intros v p q f r c W Sc E N I B X. symmetry in E. rewrite <- X in E.
    assert (G : forall A (m : rop cr A) (k : A -> tval) bs, crt c m bs -> content r ++ q = bs ->
               exists e s', hbind (hlift m) (fun x => hret (k x)) (r, c) = Ok (inr e, s')).
    { intros A m k bs T X'. destruct (T r q B X' N) as (a & e & s' & R). exists e, s'.
      unfold hbind, hlift. rewrite R. reflexivity. }
    destruct v; try contradiction; cbn [sc_val] in E; (eapply G; [|exact E]).
    + apply crt_bool, I.
    + apply crt_byte.
    + apply crt_i16.
    + apply crt_i32.
    + apply crt_i64.
    + apply crt_double.
  - intros n p q r c H E N B X. symmetry in E. rewrite <- X in E. split.
    + exact (crt_string_len c n H r q B E N).
    + exact (crt_binary_len c n H r q B E N).
Qed.
Theorem C21_truncation_reported_partial :
  (forall v p q f r c, wf v -> scalar v -> sc_val v = p ++ q -> q <> [] -> rd_idle c ->
     benign r -> content r = p ->
     exists e s', read_val compactR (S f) (vtype v) (r, c) = Ok (inr e, s')) /\
  (forall n p q r c, 0 <= n -> sc_var n = p ++ q -> q <> [] -> benign r -> content r = p ->
     (exists a e s', rString compactR (r, c) = Ok (a, Some e, s')) /\
     (exists a e s', rBinary compactR (r, c) = Ok (a, Some e, s'))).
Proof. exact C21_aux. Qed.
Print Assumptions C21_truncation_reported_partial.
Lemma C21_aux2 : forall s p q r c, Z.of_nat (length s) < 2 ^ 31 -> s = p ++ q ->
  benign r -> content r = sc_var (Z.of_nat (length s)) ++ p ->
  exists b s', rBinary compactR (r, c) = Ok (b, None, s').
Proof.
  intros s p q r c H E B X. cbn [rBinary compactR]. unfold cReadBinary.
  destruct (crd_varint32 c _ (len_u64 s H) r _ B X) as (r' & -> & B' & X'). cbn [obind].
  rewrite wraps32_len by lia. destruct (Z.of_nat (length s) =? 0); [eauto|].
  replace (Z.of_nat (length s) <? 0) with false by lia.
  destruct (read_all _ r') as [[[? b] ?] r2]. eauto.
Qed.
(** No truncation of a string's body is ever reported. *)
Theorem C21_truncated_body_never_reported : forall s p q r c,
  Z.of_nat (length s) < 2 ^ 31 -> s = p ++ q ->
  benign r -> content r = sc_var (Z.of_nat (length s)) ++ p ->
  exists b s', rBinary compactR (r, c) = Ok (b, None, s').
Proof. exact C21_aux2. Qed.
Print Assumptions C21_truncated_body_never_reported.
Example C21_case : scalar (VI64 (- 2 ^ 63)) /\ wf (VI64 (- 2 ^ 63)) /\
  sc_val (VI64 (- 2 ^ 63)) = [255; 255; 255; 255] ++ [255; 255; 255; 255; 255; 1] /\
  read_val compactR 1 I64 ([([255; 255], None); ([255; 255], None)], cinit) =
    Ok (inr (ETransport 0), ([], cinit)).
Proof. split; [exact I|]. concrete. Qed.

(** ** C22 *)
Theorem C22_compact_malformed_length_refuted : exists r,
  benign r /\ is_bytes (content r) /\ rBinary compactR (r, cinit) = Panic /\
  rString compactR (r, cinit) = Panic.
Proof. exists [([255; 255; 255; 255; 15], None)]. concrete. Qed.
Print Assumptions C22_compact_malformed_length_refuted.
Definition may_panic {A} (k : rcall A) : Prop :=
  match k with
  | CBinary | CString | CMessageBegin | CStructEnd | CSkip _ _ _ _ => True
  | _ => False
  end.
Lemma field_any : forall s, exists a e s', cReadFieldBegin s = Ok (a, e, s').
Proof.
  intros [r c]. unfold cReadFieldBegin. destruct (cReadByte_any r c) as (b & e & r1 & -> & _).
  cbn [obind]. destruct e; [eauto|]. destruct (_ =? STOP); [eauto|]. cbn zeta.
  destruct (wraps 16 _ =? 0).
  - unfold cReadI16, cReadI32. destruct (readVarint32_any r1 c) as (v & e & r2 & -> & _).
    cbn [obind]. destruct e; cbn [obind].
    + destruct (pefo_some e) as [e' ->]. eauto.
    + destruct (getTType _) as [t [e'|]]; eauto.
  - cbn [obind]. destruct (getTType _) as [t [e'|]]; eauto.
Qed.
Lemma map_any : forall s, exists a e s', cReadMapBegin s = Ok (a, e, s').
Proof.
  intros [r c]. unfold cReadMapBegin. destruct (readVarint32_any r c) as (n & e & r1 & -> & _).
  cbn [obind]. destruct e; [eauto|]. destruct (negb _).
  - destruct (cReadByte_any r1 c) as (b & e & r2 & -> & _). cbn [obind]. destruct e; eauto.
  - cbn [obind]. eauto.
Qed.
Lemma list_any : forall s, exists a e s', cReadListBegin s = Ok (a, e, s').
Proof.
  intros [r c]. unfold cReadListBegin. destruct (cReadByte_any r c) as (b & e & r1 & -> & _).
  cbn [obind]. destruct e; [eauto|]. cbn zeta. destruct (_ =? 15).
  - destruct (readVarint32_any r1 c) as (n & e & r2 & -> & _). cbn [obind].
    destruct e; [eauto|]. destruct (getTType b); eauto.
  - cbn [obind]. destruct (getTType b); eauto.
Qed.
Lemma C22_aux : forall A (k : rcall A) s, ~ may_panic k ->
  exists a e s', call compactR k s = Ok (a, e, s').
Proof.
  intros A k [r c] H. destruct k; cbn [may_panic] in H; try (exfalso; apply H; exact I);
    cbn [call compactR rMessageEnd rStructBegin rFieldBegin rFieldEnd rMapBegin rMapEnd
         rListBegin rListEnd rSetBegin rSetEnd rBool rByte rI16 rI32 rI64 rDouble];
    try (eexists _, _, _; reflexivity); try apply field_any; try apply map_any; try apply list_any.
  - unfold cReadBool. destruct (boolValueIsNotNull c); [eauto|].
    destruct (cReadByte_any r c) as (b & e & r1 & -> & _). cbn. eauto.
  - destruct (cReadByte_any r c) as (b & e & r1 & -> & _). eauto.
  - unfold cReadI16, cReadI32. destruct (readVarint32_any r c) as (n & e & r1 & -> & _).
    cbn [obind]. destruct e; cbn [obind]; eauto.
  - unfold cReadI32. destruct (readVarint32_any r c) as (n & e & r1 & -> & _).
    cbn [obind]. destruct e; eauto.
  - unfold cReadI64. destruct (readVarint64_any r c) as (n & e & r1 & -> & _).
    cbn [obind]. destruct e; eauto.
  - unfold cReadDouble. destruct (read_all 8 r) as [[[? ?] [?|]] ?]; eauto.
Qed.
(** What holds: on every transport whatsoever (errors, empty reads) every other read returns;
    ReadBinary and ReadString return unless the length is negative; ReadMessageBegin reads a
    string; ReadStructEnd returns once a struct has begun.  Missing: negative lengths. *)
Theorem C22_compact_reads_total_partial : forall A (k : rcall A) s,
  ~ may_panic k -> exists a e s', call compactR k s = Ok (a, e, s').
Proof. exact C22_aux. Qed.
Print Assumptions C22_compact_reads_total_partial.
Lemma C22_binary : forall s,
  (exists a e s', cReadBinary s = Ok (a, e, s')) \/
  (exists n s', readVarint32 s = Ok (n, None, s') /\ n < 0).
Proof.
  intros [r c]. unfold cReadBinary. destruct (readVarint32_any r c) as (n & e & r1 & -> & _).
  cbn [obind]. destruct e; [left; eauto|]. destruct (n =? 0); [left; eauto|].
  destruct (n <? 0) eqn:E; [right; exists n, (r1, c); split; [reflexivity|lia]|].
  left. destruct (read_all (Z.to_nat n) r1) as [[[? b] ?] r2]. eauto.
Qed.
Lemma C22_aux2 : forall s,
  ((exists a e s', rBinary compactR s = Ok (a, e, s')) /\
   (exists a e s', rString compactR s = Ok (a, e, s'))) \/
  (exists n s', readVarint32 s = Ok (n, None, s') /\ n < 0).
Proof.
  intro s. destruct (C22_binary s) as [(a & e & s' & R)|H]; [left|right; assumption].
  cbn [rBinary rString compactR]. split; [eauto|]. unfold cReadString. rewrite R. cbn. eauto.
Qed.
Theorem C22_read_binary_partial : forall s,
  ((exists a e s', rBinary compactR s = Ok (a, e, s')) /\
   (exists a e s', rString compactR s = Ok (a, e, s'))) \/
  (exists n s', readVarint32 s = Ok (n, None, s') /\ n < 0).
Proof. exact C22_aux2. Qed.
Print Assumptions C22_read_binary_partial.
Theorem C22_struct_end_partial : forall r c nm e s s2,
  rStructBegin compactR (r, c) = Ok (nm, e, s) -> lastField (snd s) = lastField (snd s2) ->
  exists s', rStructEnd compactR s2 = Ok (None, s').
Proof.
  intros r c nm e s [r2 c2] H E. cbn in H. inversion H; subst. cbn in E |- *.
  destruct c2; cbn in *; subst. eauto.
Qed.
Print Assumptions C22_struct_end_partial.
Example C22_case :
  call compactR CMapBegin ([([255; 255], Some (EOther 3)); ([], None)], cinit) =
    Ok ((0, 0, 0), Some (EProtocol 0), ([([], None)], cinit)) /\
  call compactR CListBegin ([([255; 255; 255; 255; 255; 15], None)], cinit) =
    Ok ((0, -1), Some (EProtocol 0), ([], cinit)).
Proof. split; vm_compute; reflexivity. Qed.

(** ** C23 *)
(** An empty map of any types is read back as a map from STOP to STOP. *)
Theorem C23_empty_map_refuted : exists k v,
  wire_type k /\ wire_type v /\
  wMapBegin compactW k v 0 (MkWt [] [], cinit) = Ok (None, (MkWt [0] [], cinit)) /\
  rMapBegin compactR ([([0], None)], cinit) = Ok ((STOP, STOP, 0), None, ([], cinit)) /\
  (k, v) <> (STOP, STOP).
Proof. exists I32, STRING. concrete. Qed.
Print Assumptions C23_empty_map_refuted.
Lemma C23_aux :
  (forall t n, wire_type t -> 0 <= n < 2 ^ 31 ->
     round_trip (wListBegin compactW t n) (rListBegin compactR) (t, n)) /\
  (forall t n, wire_type t -> 0 <= n < 2 ^ 31 ->
     round_trip (wSetBegin compactW t n) (rSetBegin compactR) (t, n)) /\
  (forall k v n, wire_type k -> wire_type v -> 0 <= n < 2 ^ 31 ->
     round_trip (wMapBegin compactW k v n) (rMapBegin compactR)
       (if n =? 0 then (STOP, STOP, 0) else (k, v, n))).
Proof.
  split; [|split].
  - intros t n T H. eapply rt_of; intros c I; [apply cenc_list|apply crd_list]; assumption.
  - intros t n T H. eapply rt_of; intros c I; [apply cenc_set|apply crd_list]; assumption.
  - intros k v n K V H. eapply rt_of; intros c I; [apply cenc_map|apply crd_map]; assumption.
Qed.
(** What holds: lists and sets of all sizes, maps of all sizes but 0.  Missing: the types of an
    empty map, which are not on the wire. *)
Theorem C23_container_headers_partial :
  (forall t n, wire_type t -> 0 <= n < 2 ^ 31 ->
     round_trip (wListBegin compactW t n) (rListBegin compactR) (t, n)) /\
  (forall t n, wire_type t -> 0 <= n < 2 ^ 31 ->
     round_trip (wSetBegin compactW t n) (rSetBegin compactR) (t, n)) /\
  (forall k v n, wire_type k -> wire_type v -> 0 <= n < 2 ^ 31 ->
     round_trip (wMapBegin compactW k v n) (rMapBegin compactR)
       (if n =? 0 then (STOP, STOP, 0) else (k, v, n))).
Proof. exact C23_aux. Qed.
Print Assumptions C23_container_headers_partial.
Example C23_case :
  wListBegin compactW STRUCT 14 (MkWt [] [], cinit) = Ok (None, (MkWt [236] [], cinit)) /\
  wSetBegin compactW BOOL 15 (MkWt [] [], cinit) = Ok (None, (MkWt [241; 15] [], cinit)) /\
  wMapBegin compactW I32 STRING (2 ^ 31 - 1) (MkWt [] [], cinit) =
    Ok (None, (MkWt [255; 255; 255; 255; 7; 88] [], cinit)) /\
  rMapBegin compactR ([([255; 255; 255; 255; 7; 88], None)], cinit) =
    Ok ((I32, STRING, 2 ^ 31 - 1), None, ([], cinit)).
Proof. repeat split; vm_compute; reflexivity. Qed.

(** ** C24 *)
(** A struct with one false field cannot be read back. *)
Theorem C24_compact_value_refuted : exists v bs s',
  wf v /\ write_val compactW v (MkWt [] [], cinit) = Ok (None, (MkWt bs [], cinit)) /\
  read_val compactR 10 (vtype v) ([(bs, None)], cinit) = Ok (inr (EProtocol 0), s').
Proof.
  exists (VStruct [(1, VBool false)]). eexists _, _. split; [concrete|].
  split; [vm_compute; reflexivity|vm_compute; reflexivity].
Qed.
Print Assumptions C24_compact_value_refuted.
(** What holds: values of any nesting without a false field of a struct (false in a list is
    fine), and with [ids_apart] as in C19 (true of every value whose structs nest at most two
    deep), are read back exactly except that empty maps lose their key and value types.
    Missing: false fields; most structs nested three deep or deeper. *)
Theorem C24_compact_value_partial : forall v,
  wf v -> no_false_field v = true -> ids_apart v = true -> value_reads_as v (untyped_empty v).
Proof. exact C24_aux. Qed.
Print Assumptions C24_compact_value_partial.
Example C24_case :
  wf csample /\ no_false_field csample = true /\ ids_apart csample = true /\
  untyped_empty csample = csample /\
  exists c', read_val compactR 20 STRUCT ([(sc_val csample ++ [9], None)], cinit) =
    Ok (inl csample, ([([9], None)], c')).
Proof. concrete. eexists. vm_compute. reflexivity. Qed.

(** ** C25 *)
(** Skipping a false field leaves the reader inside the struct. *)
Theorem C25_skip_compact_refuted : exists v rest s',
  wf v /\ skip compactR 64 20 (vtype v) 64 ([(sc_val v ++ rest, None)], cinit) = Ok (None, s') /\
  content (fst s') <> rest.
Proof.
  exists (VStruct [(1, VBool false); (2, VByte 0)]), [7; 7]. eexists. split; [concrete|].
  split; [vm_compute; reflexivity|]. vm_compute. discriminate.
Qed.
Print Assumptions C25_skip_compact_refuted.
Lemma C25_aux : forall M v f d r rest c,
  wf v -> no_false_field v = true -> ids_apart v = true -> (need v <= f)%nat -> rd_idle c ->
  benign r -> content r = sc_val v ++ rest ->
  exists r' c', skip compactR M f (vtype v) d (r, c) = Ok (None, (r', c')) /\ benign r' /\
    content r' = rest /\ rd_idle c' /\ ((sdepth v <= 1)%nat -> lastFieldId c' = lastFieldId c).
Proof.
  intros M v f d r rest c W NF AP Hf I B X.
  destruct (tri_val v W NF AP f c Hf I r rest B X) as (r' & c' & R & B' & A & X').
  exists r', c'. repeat split; auto.
  - eapply (proj1 (skip_of_read compactR M f)), R.
  - apply A.
  - intros D. apply A, D.
Qed.
(** What holds: under the conditions of C24 the position is exact; the numbering is intact when
    the value contains no struct within a struct.  Missing: false fields and deeper nesting. *)
Theorem C25_skip_compact_partial : forall M v f d r rest c,
  wf v -> no_false_field v = true -> ids_apart v = true -> (need v <= f)%nat -> rd_idle c ->
  benign r -> content r = sc_val v ++ rest ->
  exists r' c', skip compactR M f (vtype v) d (r, c) = Ok (None, (r', c')) /\ benign r' /\
    content r' = rest /\ rd_idle c' /\ ((sdepth v <= 1)%nat -> lastFieldId c' = lastFieldId c).
Proof. exact C25_aux. Qed.
Print Assumptions C25_skip_compact_partial.
(** Field numbering is lost after skipping a struct within a struct. *)
Theorem C25_numbering_refuted : exists v s',
  wf v /\ no_false_field v = true /\ ids_apart v = true /\
  skip compactR 64 20 (vtype v) 64 ([(sc_val v, None)], set_last cinit [0] 5) = Ok (None, s') /\
  lastFieldId (snd s') = 1.
Proof.
  exists (VStruct [(1, VStruct [(1, VByte 1)])]). eexists. split; [concrete|].
  split; [reflexivity|]. split; [reflexivity|].
  split; [vm_compute; reflexivity|vm_compute; reflexivity].
Qed.
Print Assumptions C25_numbering_refuted.
Example C25_case :
  wf csample /\ no_false_field csample = true /\ ids_apart csample = true /\
  (need csample <= 20)%nat /\ rd_idle cinit /\
  exists s', skip compactR 64 20 STRUCT 64 ([(sc_val csample ++ [9; 9], None)], cinit) =
    Ok (None, s') /\ content (fst s') = [9; 9].
Proof.
  split; [concrete|]. split; [reflexivity|]. split; [reflexivity|]. split; [cbn; lia|].
  split; [reflexivity|]. eexists. split; [vm_compute; reflexivity|vm_compute; reflexivity].
Qed.
