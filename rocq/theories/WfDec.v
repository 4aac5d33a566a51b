(** A boolean version of [wf], used to discharge the hypotheses of concrete examples. *)
From Coq Require Import ZArith List Bool Lia.
From Coq Require Import ZifyBool.
From Verif Require Import Base Arith Transport TransportProofs Values.
Import ListNotations.
Open Scope Z_scope.

Definition in_sb (w z : Z) : bool := (- 2 ^ (w - 1) <=? z) && (z <? 2 ^ (w - 1)).
Definition in_ub (w z : Z) : bool := (0 <=? z) && (z <? 2 ^ w).
Definition is_byteb (b : Z) : bool := (0 <=? b) && (b <? 256).
Definition wire_typeb (t : Z) : bool :=
  existsb (Z.eqb t) [BOOL; BYTE; DOUBLE; I16; I32; I64; STRING; STRUCT; MAP; SET; LIST].
Fixpoint wfb (v : tval) : bool :=
  match v with
  | VBool _ => true
  | VByte z => in_ub 8 z
  | VI16 z => in_sb 16 z
  | VI32 z => in_sb 32 z
  | VI64 z => in_sb 64 z
  | VDouble z => in_ub 64 z
  | VStr s => forallb is_byteb s && (Z.of_nat (length s) <? 2 ^ 31)
  | VList et l | VSet et l =>
    wire_typeb et && (Z.of_nat (length l) <? 2 ^ 31) &&
    forallb (fun x => (vtype x =? et) && wfb x) l
  | VMap kt vt l =>
    wire_typeb kt && wire_typeb vt && (Z.of_nat (length l) <? 2 ^ 31) &&
    forallb (fun kv => (vtype (fst kv) =? kt) && wfb (fst kv) &&
                       ((vtype (snd kv) =? vt) && wfb (snd kv))) l
  | VStruct fs => forallb (fun f => in_sb 16 (fst f) && wfb (snd f)) fs
  end.

Lemma in_sb_ok : forall w z, in_sb w z = true -> in_s w z.
Proof. unfold in_sb, in_s. intros. lia. Qed.
Lemma in_ub_ok : forall w z, in_ub w z = true -> in_u w z.
Proof. unfold in_ub, in_u. intros. lia. Qed.
Lemma is_bytesb_ok : forall s, forallb is_byteb s = true -> is_bytes s.
Proof.
  intros s H. rewrite forallb_forall in H. apply Forall_forall. intros x I.
  apply H in I. unfold is_byteb in I. unfold is_byte. lia.
Qed.
Lemma wire_typeb_ok : forall t, wire_typeb t = true -> wire_type t.
Proof.
  intros t H. apply existsb_exists in H. destruct H as (x & I & E).
  apply Z.eqb_eq in E. subst. exact I.
Qed.

Lemma wfb_ok : forall v, wfb v = true -> wf v.
Proof.
  induction v using tval_ind'; cbn [wfb wf]; intros E;
    repeat match goal with H : _ && _ = true |- _ => apply andb_true_iff in H; destruct H end.
  - exact I.
  - apply in_ub_ok; assumption.
  - apply in_sb_ok; assumption.
  - apply in_sb_ok; assumption.
  - apply in_sb_ok; assumption.
  - apply in_ub_ok; assumption.
  - split; [apply is_bytesb_ok; assumption|lia].
  - split; [apply wire_typeb_ok; assumption|]. split; [lia|].
    match goal with H : forallb _ l = true |- _ => revert H end.
    clear - H. induction l as [|x l IH]; cbn; intros E; [exact I|].
    rewrite !andb_true_iff in E. destruct E as [[E1 E2] E3]. inversion H; subst.
    repeat split; [lia|auto|auto].
  - split; [apply wire_typeb_ok; assumption|]. split; [lia|].
    match goal with H : forallb _ l = true |- _ => revert H end.
    clear - H. induction l as [|x l IH]; cbn; intros E; [exact I|].
    rewrite !andb_true_iff in E. destruct E as [[E1 E2] E3]. inversion H; subst.
    repeat split; [lia|auto|auto].
  - split; [apply wire_typeb_ok; assumption|]. split; [apply wire_typeb_ok; assumption|].
    split; [lia|].
    match goal with H : forallb _ l = true |- _ => revert H end.
    clear - H. induction l as [|x l IH]; cbn; intros E; [exact I|].
    rewrite !andb_true_iff in E. destruct E as [[[E1 E2] [E3 E4]] E5]. inversion H; subst.
    match goal with H : _ /\ _ |- _ => destruct H end.
    repeat split; [lia|auto|lia|auto|auto].
  - clear - H E. induction fs as [|x fs IH]; cbn in *; [exact I|].
    rewrite !andb_true_iff in E. destruct E as [[E1 E2] E3]. inversion H; subst.
    split; [split; [apply in_sb_ok; assumption|auto]|auto].
Qed.

Definition benignb (r : list (bytes * option err)) : bool :=
  forallb (fun e => match e with (_ :: _, None) => true | _ => false end) r.
Lemma benignb_ok : forall r, benignb r = true -> benign r.
Proof.
  induction r as [|[b [e|]] r IH]; cbn; intros H; [constructor| |].
  - destruct b; discriminate.
  - destruct b; [discriminate|]. constructor; [split; [discriminate|reflexivity]|apply IH, H].
Qed.

(** Closes the hypotheses of concrete cases by computation. *)
Ltac concrete :=
  repeat match goal with
  | |- _ /\ _ => split
  | |- wf _ => apply wfb_ok; vm_compute; reflexivity
  | |- benign _ => apply benignb_ok; vm_compute; reflexivity
  | |- is_bytes _ => apply is_bytesb_ok; vm_compute; reflexivity
  | |- in_s _ _ => apply in_sb_ok; vm_compute; reflexivity
  | |- in_u _ _ => apply in_ub_ok; vm_compute; reflexivity
  | |- wire_type _ => apply wire_typeb_ok; vm_compute; reflexivity
  | |- _ = _ => vm_compute; reflexivity
  | |- _ <> _ => vm_compute; discriminate
  end.
