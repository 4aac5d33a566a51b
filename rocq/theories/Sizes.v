(** Bounds on the number of bytes of encoded values, from their shape and the lengths of their strings. *)
From Coq Require Import ZArith List Bool Lia.
From Verif Require Import Base Arith Values Codec SkipProofs BinarySpec CompactSpec.
Import ListNotations.
Open Scope Z_scope.

(** 16 for every value, field and string, and the bytes of the strings. *)
Fixpoint weight (v : tval) : Z :=
  match v with
  | VStr s => 16 + Z.of_nat (length s)
  | VList _ l | VSet _ l => 16 + fold_right Z.add 0 (map weight l)
  | VMap _ _ l => 16 + fold_right Z.add 0 (map (fun kv => weight (fst kv) + weight (snd kv)) l)
  | VStruct fs => 16 + fold_right Z.add 0 (map (fun f => 16 + weight (snd f)) fs)
  | _ => 16
  end.
Lemma uvar_le : forall n u, (length (uvar n u) <= n)%nat.
Proof. induction n as [|n IH]; intro u; cbn [uvar]; [cbn; lia|]. destruct (u <? 128); cbn [length]; [lia|]. specialize (IH (u / 128)). lia. Qed.
Local Ltac ll := unfold bytes in *; lia.
Lemma concat_le : forall (A : Type) (f : A -> bytes) (g : A -> Z) l, Forall (fun a => Z.of_nat (length (f a)) <= g a) l ->
  Z.of_nat (length (concat (map f l))) <= fold_right Z.add 0 (map g l).
Proof.
  intros A f g l F. induction F as [|a l Ha F IH]; cbn [map concat fold_right]; [cbn; ll|]. rewrite app_length. ll.
Qed.
Lemma bsize_weight : forall v, Z.of_nat (length (sb_val v)) <= weight v.
Proof.
  induction v using tval_ind'; cbn [sb_val weight];
    unfold sb_bool, sb_i16, sb_i32, sb_i64, sb_double, sb_string, sb_list, sb_map, sb_stop;
    rewrite ?app_length, ?be_length; try (destruct b); cbn [length]; rewrite ?app_length, ?be_length; cbn [length]; try ll.
  - pose proof (concat_le _ sb_val weight l H). ll.
  - pose proof (concat_le _ sb_val weight l H). ll.
  - pose proof (concat_le _ (fun kv => sb_val (fst kv) ++ sb_val (snd kv)) (fun kv => weight (fst kv) + weight (snd kv)) l) as C.
    rewrite Forall_forall in H, C. specialize (C ltac:(intros kv I; rewrite app_length; destruct (H kv I); ll)). ll.
  - pose proof (concat_le _ (fun f => sb_field (vtype (snd f)) (fst f) ++ sb_val (snd f)) (fun f => 16 + weight (snd f)) fs) as C.
    rewrite Forall_forall in H, C. specialize (C ltac:(intros f I; rewrite app_length; unfold sb_field, sb_i16; cbn [length app]; rewrite ?be_length; specialize (H f I); ll)). ll.
Qed.
Lemma csize_weight : forall v, Z.of_nat (length (sc_val v)) <= weight v.
Proof.
  assert (U : forall u, (length (sc_var u) <= 10)%nat) by (intro u; apply uvar_le).
  induction v using tval_ind'; try (rewrite sc_val_struct); cbn [sc_val weight];
    unfold sc_int, sc_double, sc_string, sc_list, sc_map;
    rewrite ?app_length, ?be_length; cbn [length]; try ll; try (match goal with |- context [sc_var ?u] => pose proof (U u) end; ll).
  - cbn. ll.
  - pose proof (concat_le _ sc_val weight l H). pose proof (U (Z.of_nat (length l))). destruct (_ <=? 14); cbn [length]; ll.
  - pose proof (concat_le _ sc_val weight l H). pose proof (U (Z.of_nat (length l))). destruct (_ <=? 14); cbn [length]; ll.
  - pose proof (concat_le _ (fun kv => sc_val (fst kv) ++ sc_val (snd kv)) (fun kv => weight (fst kv) + weight (snd kv)) l) as C.
    rewrite Forall_forall in H, C. specialize (C ltac:(intros kv I; rewrite app_length; destruct (H kv I); ll)).
    pose proof (U (Z.of_nat (length l))). destruct (_ =? 0); rewrite ?app_length; cbn [length]; ll.
  - generalize 0 at 1. induction H as [|f fs Hf H IH]; intro last; cbn [sc_fields map fold_right].
    + cbn. ll.
    + rewrite app_length. specialize (IH (fst f)).
      assert (Z.of_nat (length (sc_fieldval last f)) <= 16 + weight (snd f)); [|ll].
      assert (D : forall t, (length (sc_field last t (fst f)) <= 11)%nat).
      { intro t. unfold sc_field. destruct (short _ _); cbn [length]; [ll|]. pose proof (U (zz (fst f))). unfold sc_int. ll. }
      unfold sc_fieldval. destruct (snd f) eqn:Ef; rewrite <- Ef in *; try (rewrite app_length; specialize (D (sc_type (vtype (snd f)))); ll).
      specialize (D (sc_bool b)). rewrite Ef. cbn [weight]. ll.
Qed.
