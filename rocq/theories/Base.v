(** Common vocabulary of the model: outcomes of Go calls, machine integers,
    bytes, errors. *)
From Coq Require Import ZArith List Bool Lia.
Import ListNotations.
Open Scope Z_scope.

(** Result of running a piece of Go code: a normal return, a run-time panic, or
    (an artefact of the model) exhausted recursion fuel. *)
Inductive outcome (A : Type) : Type :=
| Ok (a : A)
| Panic
| OutOfFuel.
Arguments Ok {A} a.
Arguments Panic {A}.
Arguments OutOfFuel {A}.

Definition obind {A B} (m : outcome A) (k : A -> outcome B) : outcome B :=
  match m with
  | Ok a => k a
  | Panic => Panic
  | OutOfFuel => OutOfFuel
  end.

Notation "x <- m ;; k" := (obind m (fun x => k))
  (at level 61, m at next level, right associativity).
Notation "' p <- m ;; k" := (obind m (fun x => match x with p => k end))
  (at level 61, p pattern, m at next level, right associativity).

(** Go fixed width integers: unsigned n-bit and two's complement n-bit
    reduction of a mathematical integer. *)
Definition wrapu (n x : Z) : Z := x mod 2 ^ n.
Definition wraps (n x : Z) : Z :=
  let m := x mod 2 ^ n in if m <? 2 ^ (n - 1) then m else m - 2 ^ n.

(** Byte sequences ([]byte and string). *)
Definition bytes := list Z.
Definition is_byte (b : Z) : Prop := 0 <= b < 256.
Definition is_bytes (bs : bytes) : Prop := Forall is_byte bs.

(** [make([]byte,n)] partly filled by a read: the data then zeros. *)
Definition pad (n : nat) (d : bytes) : bytes := d ++ repeat 0 (n - length d).

(** i-th element of a buffer that is known to be long enough. *)
Definition at_ (i : nat) (b : bytes) : Z := nth i b 0.

(** Go errors.  Message texts are dropped; the dynamic type and the type id are kept.
    tTransportException (ttransport_exception.go:43-46),
    tProtocolException (tprotocol_exception.go:44-47),
    tApplicationException (tapplication_exception.go), io.EOF,
    base64.CorruptInputError and any other plain error. *)
Inductive err : Type :=
| EEof
| EBase64
| EOther (n : Z)
| ETransport (t : Z)
| EProtocol (t : Z)
| EApplication (t : Z).

(** ttransport_exception.go:35-41 *)
Definition UNKNOWN_TRANSPORT_EXCEPTION := 0.
Definition NOT_OPEN := 1.
Definition ALREADY_OPEN := 2.
Definition TIMED_OUT := 3.
Definition END_OF_FILE := 4.
(** tprotocol_exception.go:35-42 *)
Definition UNKNOWN_PROTOCOL_EXCEPTION := 0.
Definition INVALID_DATA := 1.
Definition NEGATIVE_SIZE := 2.
Definition SIZE_LIMIT := 3.
Definition BAD_VERSION := 4.
Definition NOT_IMPLEMENTED := 5.

(** ttype.go:33-54 *)
Definition STOP := 0.
Definition VOID := 1.
Definition BOOL := 2.
Definition BYTE := 3.
Definition DOUBLE := 4.
Definition I16 := 6.
Definition I32 := 8.
Definition I64 := 10.
Definition STRING := 11.
Definition STRUCT := 12.
Definition MAP := 13.
Definition SET := 14.
Definition LIST := 15.
Definition ENUM := 16.
Definition UTF8 := 16.
Definition UTF16 := 17.
Definition BINARY := 18.
Definition GENERIC := 127.

(** tmessagetype.go:26-34 *)
Definition CALL := 1.
Definition REPLY := 2.
Definition EXCEPTION := 3.
Definition ONEWAY := 4.
