(** The TProtocol interface (tprotocol.go:29-77) as two records of functions over an
    abstract protocol state: its reading half and its writing half. *)
From Coq Require Import ZArith List Bool Lia.
From Verif Require Import Base Errors Transport.
Import ListNotations.
Open Scope Z_scope.

Definition rop (S A : Type) := S -> outcome (A * option err * S).
Definition wop (S : Type) := S -> outcome (option err * S).

(** tprotocol.go:52-71.  Strings are byte lists, doubles their IEEE bit patterns,
    sizes are Go ints. *)
Record rproto (S : Type) : Type := MkRproto {
  rMessageBegin : rop S (bytes * Z * Z);   (* name, type, seqid *)
  rMessageEnd : wop S;
  rStructBegin : rop S bytes;
  rStructEnd : wop S;
  rFieldBegin : rop S (bytes * Z * Z);     (* name, type, id *)
  rFieldEnd : wop S;
  rMapBegin : rop S (Z * Z * Z);           (* key type, value type, size *)
  rMapEnd : wop S;
  rListBegin : rop S (Z * Z);              (* element type, size *)
  rListEnd : wop S;
  rSetBegin : rop S (Z * Z);
  rSetEnd : wop S;
  rBool : rop S bool;
  rByte : rop S Z;
  rI16 : rop S Z;
  rI32 : rop S Z;
  rI64 : rop S Z;
  rDouble : rop S Z;
  rString : rop S bytes;
  rBinary : rop S bytes
}.
Arguments rMessageBegin {S}. Arguments rMessageEnd {S}.
Arguments rStructBegin {S}. Arguments rStructEnd {S}.
Arguments rFieldBegin {S}. Arguments rFieldEnd {S}.
Arguments rMapBegin {S}. Arguments rMapEnd {S}.
Arguments rListBegin {S}. Arguments rListEnd {S}.
Arguments rSetBegin {S}. Arguments rSetEnd {S}.
Arguments rBool {S}. Arguments rByte {S}. Arguments rI16 {S}. Arguments rI32 {S}.
Arguments rI64 {S}. Arguments rDouble {S}. Arguments rString {S}. Arguments rBinary {S}.

(** tprotocol.go:30-50 *)
Record wproto (S : Type) : Type := MkWproto {
  wMessageBegin : bytes -> Z -> Z -> wop S;
  wMessageEnd : wop S;
  wStructBegin : bytes -> wop S;
  wStructEnd : wop S;
  wFieldBegin : bytes -> Z -> Z -> wop S;
  wFieldEnd : wop S;
  wFieldStop : wop S;
  wMapBegin : Z -> Z -> Z -> wop S;
  wMapEnd : wop S;
  wListBegin : Z -> Z -> wop S;
  wListEnd : wop S;
  wSetBegin : Z -> Z -> wop S;
  wSetEnd : wop S;
  wBool : bool -> wop S;
  wByte : Z -> wop S;
  wI16 : Z -> wop S;
  wI32 : Z -> wop S;
  wI64 : Z -> wop S;
  wDouble : Z -> wop S;
  wString : bytes -> wop S;
  wBinary : bytes -> wop S
}.
Arguments wMessageBegin {S}. Arguments wMessageEnd {S}.
Arguments wStructBegin {S}. Arguments wStructEnd {S}.
Arguments wFieldBegin {S}. Arguments wFieldEnd {S}. Arguments wFieldStop {S}.
Arguments wMapBegin {S}. Arguments wMapEnd {S}.
Arguments wListBegin {S}. Arguments wListEnd {S}.
Arguments wSetBegin {S}. Arguments wSetEnd {S}.
Arguments wBool {S}. Arguments wByte {S}. Arguments wI16 {S}. Arguments wI32 {S}.
Arguments wI64 {S}. Arguments wDouble {S}. Arguments wString {S}. Arguments wBinary {S}.

(** Methods that do nothing and report no error. *)
Definition nop {S} : wop S := fun s => Ok (None, s).

(** Sequencing of write steps in the Go style
    [e := step1; if e != nil { return e }; e = step2; ...]. *)
Definition wseq {S} (m k : wop S) : wop S :=
  fun s => '(e, s1) <- m s ;;
           match e with
           | Some _ => Ok (e, s1)
           | None => k s1
           end.
Notation "m >>> k" := (wseq m k) (at level 55, right associativity).
