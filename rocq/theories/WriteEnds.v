(** No method that writes runs on for ever: with room for the levels of the type, it returns or panics. *)
From Coq Require Import ZArith List Bool Lia String.
From Verif Require Import Base Arith Errors Transport Proto Values WriteErr TField GoVal Compare Depth Gen GenSpec GenProofs
  AppExc Rpc Buffer Framed Binary Compact CompactSkip Json Over OverInst OverRpc Serve.
Import ListNotations.
Local Open Scope list_scope.
Local Notation length := List.length.
Open Scope Z_scope.

Definition endw {S} (m : wop S) : Prop := forall s, m s <> OutOfFuel.
Lemma endw_seq : forall S (a b : wop S), endw a -> endw b -> endw (a >>> b).
Proof. intros S a b Ha Hb s. unfold wseq. apply obind_some; [apply Ha|]. intros [[e|] s1] _; [discriminate|apply Hb]. Qed.
Lemma endw_nop : forall S, endw (@nop S).
Proof. intros S s. discriminate. Qed.
Lemma endw_wrap : forall S (m : wop S), endw m -> endw (wwrap m).
Proof. intros S m H s. unfold wwrap. apply obind_some; [apply H|]. intros [[e|] s1] _; discriminate. Qed.
Lemma endw_seqs : forall S (l : list (wop S)), (forall m, In m l -> endw m) -> endw (wseqs l).
Proof.
  intros S l. induction l as [|m l IH]; intros H; cbn [wseqs]; [apply endw_nop|].
  apply endw_seq; [apply H; left; reflexivity|]. apply IH. intros m' Hm. apply H. right. exact Hm.
Qed.
Definition ends_all {S} (W : wproto S) : Prop := forall c, endw (wexec W c).

(** ** Generated writers *)

(** Levels of a type, structs included. *)
Fixpoint height (t : ty) : nat :=
  match t with
  | TyList e | TySet e => S (height e)
  | TyMap k v => S (Nat.max (height k) (height v))
  | TyStruct _ ms => S (fold_right (fun m n => Nat.max (let 'Mem _ _ _ _ u := m in height u) n) 1%nat ms)
  | _ => 1%nat
  end.
Definition mheight (ms : list Gen.member) : nat := fold_right (fun m n => Nat.max (height (m_ty m)) n) 1%nat ms.
Lemma height_struct : forall n ms, height (TyStruct n ms) = S (mheight ms).
Proof. intros n ms. cbn [height]. f_equal. unfold mheight. induction ms as [|[] ms IH]; cbn [fold_right m_ty]; [reflexivity|]. now rewrite IH. Qed.
Lemma mheight_in : forall ms m, In m ms -> (height (m_ty m) <= mheight ms)%nat.
Proof.
  induction ms as [|m0 ms IH]; intros m Hm; [destruct Hm|]. unfold mheight. cbn [fold_right]. fold (mheight ms).
  destruct Hm as [->|Hm]; [lia|]. specialize (IH m Hm). lia.
Qed.
Lemma mheight_1 : forall ms, (1 <= mheight ms)%nat.
Proof. induction ms as [|m ms IH]; unfold mheight; cbn [fold_right]; [lia|]. fold (mheight ms). lia. Qed.
Lemma height_1 : forall t, (1 <= height t)%nat.
Proof. destruct t; cbn; lia. Qed.

Section Writer.
Context {S : Type}.
Variable W : wproto S.
Hypothesis We : ends_all W.
Variable x : ext.
Ltac we c := apply endw_wrap; exact (We c).
Lemma endw_gwrite : forall f,
  (forall t v, (2 * height t <= f)%nat -> endw (gwrite W x f t v)) /\
  (forall m v, (2 * height (m_ty m) + 1 <= f)%nat -> endw (gwrite_field W x f m v)).
Proof.
  induction f as [|f [IH IHf]]; (split; [intros t v L|intros m v L]).
  - pose proof (height_1 t). lia.
  - lia.
  - cbn [gwrite]. destruct t; destruct v; try (intro s0; discriminate).
    + we (WcBool b). 
    + we (WcByte z).
    + we (WcI16 z).
    + we (WcI32 z).
    + we (WcI64 z).
    + we (WcDouble bits).
    + we (WcString s).
    + we (WcBinary s).
    + match goal with |- context [if ?c then _ else _] => destruct c end; [|intro; discriminate]. apply endw_wrap. eapply (We (WcI32 _)).
    + cbn [height] in L. apply endw_seq; [apply endw_wrap; eapply (We (WcListBegin _ _))|]. apply endw_seq; [|we WcListEnd].
      apply endw_seqs. intros m Hm. apply in_map_iff in Hm. destruct Hm as (u & <- & _). apply IH. lia.
    + cbn [height] in L. apply endw_seq; [apply endw_wrap; eapply (We (WcSetBegin _ _))|]. apply endw_seq; [|we WcSetEnd].
      apply endw_seqs. intros m Hm. apply in_map_iff in Hm. destruct Hm as (u & <- & _). apply IH. lia.
    + cbn [height] in L. apply endw_seq; [apply endw_wrap; eapply (We (WcMapBegin _ _ _))|]. apply endw_seq; [|we WcMapEnd].
      intro s0. apply obind_some.
      { unfold map_entries. repeat match goal with |- context [if ?c then _ else _] => destruct c end; discriminate. }
      intros es _. apply endw_seqs. intros m Hm. apply in_map_iff in Hm. destruct Hm as (u & <- & _).
      apply endw_seq; apply IH; lia.
    + rewrite height_struct in L. match goal with |- context [if ?c then _ else _] => destruct c end; [|intro; discriminate].
      apply endw_seq; [apply endw_wrap; eapply (We (WcStructBegin _))|]. apply endw_seq; [|apply endw_seq; [we WcFieldStop|we WcStructEnd]].
      apply endw_seqs. intros m Hm. apply in_map_iff in Hm. destruct Hm as (u & <- & Hu). apply IHf.
      apply (proj1 (in_sorted _ _)) in Hu. pose proof (mheight_in _ _ Hu). lia.
  - cbn [gwrite_field]. destruct (gemits m v); [|apply endw_nop].
    apply endw_seq; [apply endw_wrap; eapply (We (WcFieldBegin _ _ _))|]. apply endw_seq; [|we WcFieldEnd].
    apply endw_wrap, IH. lia.
Qed.
Lemma result_pick_in : forall attrs l d m, result_pick attrs d l = Some m -> In m l \/ d = Some m.
Proof.
  induction l as [|m0 l IH]; intros d m H; cbn [result_pick] in H; [right; exact H|].
  destruct (can_be_nil (m_ty m0) && negb (m_id m0 =? 0)).
  - destruct (is_nil _); [destruct (IH _ _ H); [left; right; assumption|right; assumption]|]. injection H as <-. left; left; reflexivity.
  - destruct (IH _ _ H) as [G|G]; [left; right; exact G|]. destruct d; [right; exact G|]. injection G as <-. left; left; reflexivity.
Qed.
Lemma endw_result : forall f name ms attrs, (2 * mheight ms + 1 <= f)%nat -> endw (gwrite_result W x f name ms attrs).
Proof.
  intros f name ms attrs L. unfold gwrite_result.
  apply endw_seq; [apply endw_wrap; eapply (We (WcStructBegin _))|]. apply endw_seq; [|apply endw_seq; [we WcFieldStop|we WcStructEnd]].
  destruct (result_pick attrs None (rev (sorted_members ms))) as [m|] eqn:E; [|apply endw_nop].
  apply result_pick_in in E. destruct E as [E|E]; [|discriminate]. apply (proj2 (in_rev _ _)) in E. apply (proj1 (in_sorted _ _)) in E. 
  pose proof (mheight_in _ _ E). apply (proj2 (endw_gwrite f)). lia.
Qed.
Lemma endw_app : forall e, endw (app_write W e).
Proof.
  intros e s. unfold app_write. apply obind_some; [apply (We (WcStructBegin _))|]. intros [e1 s1] _. revert s1. fold (@endw S).
  match goal with |- forall s1, ?m s1 <> _ => change (endw m) end.
  apply endw_seq.
  { destruct (x_msg e) as [|b l]; [apply endw_nop|].
    apply endw_seq; [eapply (We (WcFieldBegin _ _ _))|]. apply endw_seq; [eapply (We (WcString _))|exact (We WcFieldEnd)]. }
  apply endw_seq; [eapply (We (WcFieldBegin _ _ _))|]. apply endw_seq; [eapply (We (WcI32 _))|]. apply endw_seq; [exact (We WcFieldEnd)|].
  apply endw_seq; [exact (We WcFieldStop)|exact (We WcStructEnd)].
Qed.
Variable flush : wop S.
Hypothesis Fe : endw flush.
Lemma exception_ends : forall name seq e so, write_exception W flush name seq e so <> OutOfFuel.
Proof.
  intros name seq e so. unfold write_exception. apply obind_some; [apply (We (WcMessageBegin _ _ _))|]. intros [e1 s1] _.
  apply obind_some; [apply endw_app|]. intros [e2 s2] _. apply obind_some; [apply (We WcMessageEnd)|]. intros [e3 s3] _.
  apply obind_some; [apply Fe|]. intros [e4 s4] _. discriminate.
Qed.
End Writer.

(** ** The protocols *)
Section Over.
Context {T : Type}.
Variable write : bytes -> T -> outcome (Z * option err * T).
Variable copy : bytes -> T -> outcome (option err * T).
Hypothesis Hw : forall p t, write p t <> OutOfFuel.
Hypothesis Hc : forall p t, copy p t <> OutOfFuel.
Lemma ew : forall v, endw (o_b_write write v).
Proof. intros v t. apply obind_some; [apply Hw|]. intros [[n e] t1] _. discriminate. Qed.
Lemma es : forall v, endw (o_bWriteString write copy v).
Proof. intro v. apply endw_seq; [apply ew|]. intro t. apply obind_some; [apply Hc|]. intros [e t1] _. discriminate. Qed.
Lemma ends_binary : forall strict, ends_all (o_binaryW write copy strict).
Proof.
  intros strict [] ; cbn [wexec o_binaryW wMessageBegin wMessageEnd wStructBegin wStructEnd wFieldBegin wFieldEnd wFieldStop wMapBegin wMapEnd
    wListBegin wListEnd wSetBegin wSetEnd wBool wByte wI16 wI32 wI64 wDouble wString wBinary];
    try apply endw_nop; try apply ew; try apply es.
  - unfold o_bWriteMessageBegin. destruct strict; (apply endw_seq; [first [apply ew|apply es]|]; apply endw_seq; first [apply ew|apply es]).
  - apply endw_seq; apply ew.
  - apply endw_seq; [apply ew|]. apply endw_seq; apply ew.
  - apply endw_seq; apply ew.
  - apply endw_seq; apply ew.
  - unfold o_bWriteBool. destruct b; apply ew.
  - apply endw_seq; apply ew.
Qed.
Lemma er : forall v, endw (o_c_write_raw write v).
Proof. intros v [t c]. apply obind_some; [apply Hw|]. intros [[n e] t1] _. discriminate. Qed.
Lemma ex : forall m : wop (T * cstate), endw m -> endw (o_wrap_exc m).
Proof. intros m H s. apply obind_some; [apply H|]. intros [e s1] _. discriminate. Qed.
Lemma v32_ends : forall room n, varint32_bytes room n <> OutOfFuel.
Proof.
  induction room as [|room IH]; intro n; cbn [varint32_bytes]; [discriminate|]. destruct (_ =? 0); [discriminate|].
  apply obind_some; [apply IH|]. discriminate.
Qed.
Lemma v64_ends : forall room n, varint64_bytes room n <> OutOfFuel.
Proof.
  induction room as [|room IH]; intro n; cbn [varint64_bytes]; [discriminate|]. destruct (_ =? 0); [discriminate|].
  apply obind_some; [apply IH|]. discriminate.
Qed.
Lemma e32 : forall n, endw (o_writeVarint32 write n).
Proof. intros n s. unfold o_writeVarint32. apply obind_some; [apply v32_ends|]. intros bs _. apply er. Qed.
Lemma e64 : forall n, endw (o_writeVarint64 write n).
Proof. intros n s. unfold o_writeVarint64. apply obind_some; [apply v64_ends|]. intros bs _. apply er. Qed.
Lemma ctype_ends : forall t, getCompactType t <> OutOfFuel.
Proof. intro t. unfold getCompactType. repeat match goal with |- context [if ?c then _ else _] => destruct c end; discriminate. Qed.
Lemma ebin : forall v, endw (o_cWriteBinary write v).
Proof. intro v. unfold o_cWriteBinary. apply endw_seq; [apply ex, e32|]. destruct (0 <? length v)%nat; [apply ex, er|apply endw_nop]. Qed.
Lemma efield : forall t i o, endw (o_writeFieldBeginInternal write t i o).
Proof.
  intros t i o [w c]. unfold o_writeFieldBeginInternal. apply obind_some; [destruct (o =? 255); [apply ctype_ends|discriminate]|].
  intros tw _. cbv zeta. apply endw_seq; [|intros [w1 c1]; discriminate].
  match goal with |- context [if ?c then _ else _] => destruct c end; [apply er|]. apply endw_seq; [apply er|apply ex, e32].
Qed.
Lemma ecoll : forall t n, endw (o_writeCollectionBegin write t n).
Proof.
  intros t n s. unfold o_writeCollectionBegin. apply obind_some; [apply ctype_ends|]. intros k _. 
  destruct (n <=? 14); [apply er|apply endw_seq; [apply er|apply e32]].
Qed.
Lemma ends_compact : ends_all (o_compactW write).
Proof.
  intros []; cbn [wexec o_compactW wMessageBegin wMessageEnd wStructBegin wStructEnd wFieldBegin wFieldEnd wFieldStop wMapBegin wMapEnd
    wListBegin wListEnd wSetBegin wSetEnd wBool wByte wI16 wI32 wI64 wDouble wString wBinary];
    try apply endw_nop; try (apply ex; first [apply er|apply e32|apply e64|apply ecoll]; fail); try apply ebin.
  - unfold o_cWriteMessageBegin. do 3 (apply endw_seq; [apply ex; first [apply er|apply e32]|]). apply ebin.
  - intros [w c]. discriminate.
  - intros [w c]. unfold o_cWriteStructEnd. destruct (lastField c); discriminate.
  - intros [w c]. unfold o_cWriteFieldBegin. destruct (t =? BOOL); [discriminate|]. apply ex, efield.
  - unfold o_cWriteMapBegin. destruct (n =? 0); [apply ex, er|]. apply endw_seq; [apply ex, e32|]. intro s.
    apply obind_some; [apply ctype_ends|]. intros a _. apply obind_some; [apply ctype_ends|]. intros b _. apply ex, er.
  - intros [w c]. unfold o_cWriteBool. cbv zeta. destruct (booleanField c) as [[t i]|]; [|apply ex, er].
    apply obind_some; [apply efield|]. intros [e [w1 c1]] _. discriminate.
Qed.
End Over.
Lemma copy_ends : forall T (write : bytes -> T -> outcome (Z * option err * T)), (forall p t, write p t <> OutOfFuel) ->
  forall p t, copy_over write p t <> OutOfFuel.
Proof.
  intros T write Hw p. unfold copy_over. generalize (length p) as f. intro f. revert p.
  induction f as [|f IH]; intros p t; cbn [copy_blocks_over]; [discriminate|]. destruct p as [|b p]; [discriminate|].
  apply obind_some; [apply Hw|]. intros [[n [e|]] t1] _; [discriminate|apply IH].
Qed.

(** Every writer a server can have. *)
Lemma ends_writer : forall tf pf, ends_all (wr_proto (GetWriter tf pf)) /\ endw (wr_flush (GetWriter tf pf)).
Proof.
  assert (Pw : forall p t, plain_write p t <> OutOfFuel) by (intros p t; discriminate).
  assert (Fw : forall p t, framed_wr p t <> OutOfFuel) by (intros p t; discriminate).
  intros [] [ir iw|]; cbn [GetWriter wr_proto wr_flush].
  - split; [|apply endw_nop]. rewrite <- (binaryW_over iw). apply ends_binary; [exact Pw|]. intros p t; discriminate.
  - split; [|apply endw_nop]. rewrite <- compactW_over. apply ends_compact, Pw.
  - split; [|intro; discriminate]. apply ends_binary; [exact Fw|]. apply copy_ends, Fw.
  - split; [|intros [f c]]. { apply ends_compact, Fw. } unfold compact_fflush, fflush. cbn [fst snd obind]. destruct (framed_flush None f). discriminate.
Qed.

(** *** TJSONProtocol *)
Lemma jraw : forall b, endw (out_raw b).
Proof. intros b [w c]. unfold out_raw. destruct (twrite b w) as [[n e] w1]. discriminate. Qed.
Lemma with_ends : forall k, (forall c, endw (k c)) -> @endw jw (with_ctx k).
Proof. intros k H [w [|c l]]; unfold with_ctx; cbn; [discriminate|apply H]. Qed.
Lemma jpre : endw OutputPreValue.
Proof. apply with_ends. intros []; first [apply jraw|apply endw_nop]. Qed.
Lemma jpost : endw OutputPostValue.
Proof. apply with_ends. intros c [w l]. discriminate. Qed.
Lemma jdata : forall v, endw (OutputStringData v).
Proof. intros v [w c]. unfold OutputStringData. destruct (copy_n v w). discriminate. Qed.
Lemma jpop : endw pop.
Proof. intros [w [|c l]]; discriminate. Qed.
Lemma jpush : forall c, endw (Json.push c).
Proof. intros c [w l]. discriminate. Qed.
Lemma jop : forall f, endw (out_op f).
Proof. intros f [w c]. unfold out_op. destruct (f w). discriminate. Qed.
Lemma jignore : forall m, endw m -> endw (ignoring m).
Proof. intros m H s. apply obind_some; [apply H|]. intros [e s1] _. discriminate. Qed.
Ltac js := first [ apply jraw | apply jpre | apply jpost | apply jdata | apply jpop | apply jpush | apply jop | apply endw_nop
  | apply jignore; js | apply endw_seq; js | apply with_ends; intro; js ].
Lemma ends_json : forall J, ends_all (jsonW J).
Proof. intros J []; unfold wexec, jsonW; cbn; js. Qed.
Lemma ends_simple : forall J, ends_all (simpleW J).
Proof. intros J []; unfold wexec, simpleW; cbn; js. Qed.
