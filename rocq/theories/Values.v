(** Thrift values and the canonical way a client writes and reads one through the
    TProtocol interface (the call sequences any user of the interface makes, cf. the
    generated code in tests/generation/golden and tprotocol.go:29-77).  Every read error is
    checked and ends the read. *)
From Coq Require Import ZArith List Bool Lia.
From Verif Require Import Base Errors Transport Proto Arith.
Import ListNotations.
Open Scope Z_scope.

(** Doubles are IEEE bit patterns; strings and binaries are byte strings; containers carry
    the element types of their header. *)
Inductive tval : Type :=
| VBool (b : bool)
| VByte (z : Z)
| VI16 (z : Z)
| VI32 (z : Z)
| VI64 (z : Z)
| VDouble (z : Z)
| VStr (s : bytes)
| VList (et : Z) (l : list tval)
| VSet (et : Z) (l : list tval)
| VMap (kt vt : Z) (l : list (tval * tval))
| VStruct (fs : list (Z * tval)).

Definition vtype (v : tval) : Z :=
  match v with
  | VBool _ => BOOL | VByte _ => BYTE | VI16 _ => I16 | VI32 _ => I32 | VI64 _ => I64
  | VDouble _ => DOUBLE | VStr _ => STRING | VList _ _ => LIST | VSet _ _ => SET
  | VMap _ _ _ => MAP | VStruct _ => STRUCT
  end.

(** The type ids that occur on the wire. *)
Definition wire_type (t : Z) : Prop :=
  In t [BOOL; BYTE; DOUBLE; I16; I32; I64; STRING; STRUCT; MAP; SET; LIST].

Definition all {A} (P : A -> Prop) : list A -> Prop :=
  fix all (l : list A) : Prop :=
    match l with [] => True | x :: l' => P x /\ all l' end.

(** Well-formed: numbers in range, sizes below 2^31, elements of the declared type. *)
Fixpoint wf (v : tval) : Prop :=
  match v with
  | VBool _ => True
  | VByte z => in_u 8 z
  | VI16 z => in_s 16 z
  | VI32 z => in_s 32 z
  | VI64 z => in_s 64 z
  | VDouble z => in_u 64 z
  | VStr s => is_bytes s /\ Z.of_nat (length s) < 2 ^ 31
  | VList et l | VSet et l =>
    wire_type et /\ Z.of_nat (length l) < 2 ^ 31 /\ all (fun x => vtype x = et /\ wf x) l
  | VMap kt vt l =>
    wire_type kt /\ wire_type vt /\ Z.of_nat (length l) < 2 ^ 31 /\
    all (fun kv => (vtype (fst kv) = kt /\ wf (fst kv)) /\
                   (vtype (snd kv) = vt /\ wf (snd kv))) l
  | VStruct fs => all (fun f => in_s 16 (fst f) /\ wf (snd f)) fs
  end.

Section ValInd.
Variable P : tval -> Prop.
Hypothesis HBool : forall b, P (VBool b).
Hypothesis HByte : forall z, P (VByte z).
Hypothesis HI16 : forall z, P (VI16 z).
Hypothesis HI32 : forall z, P (VI32 z).
Hypothesis HI64 : forall z, P (VI64 z).
Hypothesis HDouble : forall z, P (VDouble z).
Hypothesis HStr : forall s, P (VStr s).
Hypothesis HList : forall et l, Forall P l -> P (VList et l).
Hypothesis HSet : forall et l, Forall P l -> P (VSet et l).
Hypothesis HMap : forall kt vt l, Forall (fun kv => P (fst kv) /\ P (snd kv)) l ->
                                  P (VMap kt vt l).
Hypothesis HStruct : forall fs, Forall (fun f => P (snd f)) fs -> P (VStruct fs).

Fixpoint tval_ind' (v : tval) : P v :=
  match v with
  | VBool b => HBool b
  | VByte z => HByte z
  | VI16 z => HI16 z
  | VI32 z => HI32 z
  | VI64 z => HI64 z
  | VDouble z => HDouble z
  | VStr s => HStr s
  | VList et l => HList et l
      ((fix go l := match l return Forall P l with
                    | [] => Forall_nil _ | x :: l' => Forall_cons x (tval_ind' x) (go l')
                    end) l)
  | VSet et l => HSet et l
      ((fix go l := match l return Forall P l with
                    | [] => Forall_nil _ | x :: l' => Forall_cons x (tval_ind' x) (go l')
                    end) l)
  | VMap kt vt l => HMap kt vt l
      ((fix go l := match l return Forall (fun kv => P (fst kv) /\ P (snd kv)) l with
                    | [] => Forall_nil _
                    | x :: l' =>
                      Forall_cons x (conj (tval_ind' (fst x)) (tval_ind' (snd x))) (go l')
                    end) l)
  | VStruct fs => HStruct fs
      ((fix go l := match l return Forall (fun f => P (snd f)) l with
                    | [] => Forall_nil _
                    | x :: l' => Forall_cons x (tval_ind' (snd x)) (go l')
                    end) fs)
  end.
End ValInd.

(** ** Writing a value *)

Section Write.
Context {S : Type}.
Variable W : wproto S.

Fixpoint wseqs (l : list (wop S)) : wop S :=
  match l with
  | [] => nop
  | m :: l' => m >>> wseqs l'
  end.

Fixpoint write_val (v : tval) : wop S :=
  match v with
  | VBool b => wBool W b
  | VByte z => wByte W z
  | VI16 z => wI16 W z
  | VI32 z => wI32 W z
  | VI64 z => wI64 W z
  | VDouble z => wDouble W z
  | VStr s => wString W s
  | VList et l =>
    wListBegin W et (Z.of_nat (length l)) >>> wseqs (map write_val l) >>> wListEnd W
  | VSet et l =>
    wSetBegin W et (Z.of_nat (length l)) >>> wseqs (map write_val l) >>> wSetEnd W
  | VMap kt vt l =>
    wMapBegin W kt vt (Z.of_nat (length l)) >>>
    wseqs (map (fun kv => write_val (fst kv) >>> write_val (snd kv)) l) >>> wMapEnd W
  | VStruct fs =>
    wStructBegin W [] >>>
    wseqs (map (fun f => wFieldBegin W [] (vtype (snd f)) (fst f) >>>
                         write_val (snd f) >>> wFieldEnd W) fs) >>>
    wFieldStop W >>> wStructEnd W
  end.
End Write.

(** ** Reading a value *)

(** A read that ends at the first error. *)
Definition hop (S A : Type) := S -> outcome ((A + err) * S).
Definition hret {S A} (a : A) : hop S A := fun s => Ok (inl a, s).
Definition hfail {S A} (e : err) : hop S A := fun s => Ok (inr e, s).
Definition hbind {S A B} (m : hop S A) (k : A -> hop S B) : hop S B :=
  fun s => '(r, s') <- m s ;;
           match r with
           | inl a => k a s'
           | inr e => Ok (inr e, s')
           end.
Definition hlift {S A} (m : rop S A) : hop S A :=
  fun s => '(a, e, s') <- m s ;;
           match e with
           | None => Ok (inl a, s')
           | Some e => Ok (inr e, s')
           end.
Definition hdo {S} (m : wop S) : hop S unit :=
  fun s => '(e, s') <- m s ;;
           match e with
           | None => Ok (inl tt, s')
           | Some e => Ok (inr e, s')
           end.
Notation "x <-- m ;; k" := (hbind m (fun x => k))
  (at level 61, m at next level, right associativity).
Notation "' p <-- m ;; k" := (hbind m (fun x => match x with p => k end))
  (at level 61, p pattern, m at next level, right associativity).

Fixpoint hrepeat {S A} (n : nat) (m : hop S A) : hop S (list A) :=
  match n with
  | O => hret []
  | Datatypes.S n' => x <-- m ;; l <-- hrepeat n' m ;; hret (x :: l)
  end.

Section Read.
Context {S : Type}.
Variable R : rproto S.

(** Read a value of wire type [t]; an id that is no wire type is an error.
    [f] is fuel for nesting plus field counts. *)
Fixpoint read_val (f : nat) (t : Z) : hop S tval :=
  match f with
  | O => fun _ => OutOfFuel
  | Datatypes.S f =>
    if t =? BOOL then v <-- hlift (rBool R) ;; hret (VBool v)
    else if t =? BYTE then v <-- hlift (rByte R) ;; hret (VByte v)
    else if t =? I16 then v <-- hlift (rI16 R) ;; hret (VI16 v)
    else if t =? I32 then v <-- hlift (rI32 R) ;; hret (VI32 v)
    else if t =? I64 then v <-- hlift (rI64 R) ;; hret (VI64 v)
    else if t =? DOUBLE then v <-- hlift (rDouble R) ;; hret (VDouble v)
    else if t =? STRING then v <-- hlift (rString R) ;; hret (VStr v)
    else if t =? LIST then
      '(et, n) <-- hlift (rListBegin R) ;;
      l <-- hrepeat (Z.to_nat n) (read_val f et) ;;
      _ <-- hdo (rListEnd R) ;; hret (VList et l)
    else if t =? SET then
      '(et, n) <-- hlift (rSetBegin R) ;;
      l <-- hrepeat (Z.to_nat n) (read_val f et) ;;
      _ <-- hdo (rSetEnd R) ;; hret (VSet et l)
    else if t =? MAP then
      '(kt, vt, n) <-- hlift (rMapBegin R) ;;
      l <-- hrepeat (Z.to_nat n)
              (k <-- read_val f kt ;; v <-- read_val f vt ;; hret (k, v)) ;;
      _ <-- hdo (rMapEnd R) ;; hret (VMap kt vt l)
    else if t =? STRUCT then
      _ <-- hlift (rStructBegin R) ;;
      fs <-- read_fields f ;;
      _ <-- hdo (rStructEnd R) ;; hret (VStruct fs)
    else hfail (EOther 1)
  end
with read_fields (f : nat) : hop S (list (Z * tval)) :=
  match f with
  | O => fun _ => OutOfFuel
  | Datatypes.S f =>
    '(_, t, id) <-- hlift (rFieldBegin R) ;;
    if t =? STOP then hret []
    else
      v <-- read_val f t ;;
      _ <-- hdo (rFieldEnd R) ;;
      fs <-- read_fields f ;;
      hret ((id, v) :: fs)
  end.

Lemma read_fields_S : forall f,
  read_fields (Datatypes.S f) =
    ('(_, t, id) <-- hlift (rFieldBegin R) ;;
     if t =? STOP then hret []
     else
       v <-- read_val f t ;;
       _ <-- hdo (rFieldEnd R) ;;
       fs <-- read_fields f ;;
       hret ((id, v) :: fs)).
Proof. reflexivity. Qed.
End Read.

(** Fuel that suffices to read (or skip) a value. *)
Definition max_list (l : list nat) : nat := fold_right Nat.max O l.
Fixpoint need (v : tval) : nat :=
  match v with
  | VBool _ | VByte _ | VI16 _ | VI32 _ | VI64 _ | VDouble _ | VStr _ => 1
  | VList _ l | VSet _ l => S (max_list (map need l))
  | VMap _ _ l => S (max_list (map (fun kv => Nat.max (need (fst kv)) (need (snd kv))) l))
  | VStruct fs => S (fold_right (fun f n => S (Nat.max (need (snd f)) n)) 1%nat fs)
  end.
