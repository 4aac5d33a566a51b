(** Skip and SkipDefaultDepth, tprotocol.go:83-200, written against the protocol
    interface. *)
From Coq Require Import ZArith List Bool Lia.
From Verif Require Import Base Errors Transport Proto.
Import ListNotations.
Open Scope Z_scope.

Section Skip.
Context {S : Type}.
Variable P : rproto S.
(** The global MaxSkipDepth (tprotocol.go:83-85, settable by SetMaxSkipDepth 98-100). *)
Variable MaxSkipDepth : Z.

(** [for i := 0; i < size; i++ { body() }] with the body's error result dropped. *)
Fixpoint repeat_ignoring (n : nat) (body : wop S) : S -> outcome S :=
  fun s =>
    match n with
    | O => Ok s
    | Datatypes.S n' => '(_, s') <- body s ;; repeat_ignoring n' body s'
    end.

(** tprotocol.go:120-200.  [fuel] bounds recursion depth plus the number of fields of a
    struct; it is an artefact of the model.  [self.Skip(valueType)] of line 170 is the
    protocol's method, which is [SkipDefaultDepth(p, valueType)] for
    TBinaryProtocol (tbinary_protocol.go:448-450) and TCompactProtocol
    (tcompact_protocol.go:613-615).  Note that maxDepth is passed on but never
    tested. *)
Fixpoint skip (fuel : nat) (fieldType maxDepth : Z) : wop S :=
  fun s =>
    match fuel with
    | O => OutOfFuel
    | Datatypes.S f =>
      if fieldType =? STOP then Ok (None, s)
      else if fieldType =? BOOL then '(_, e, s1) <- rBool P s ;; Ok (e, s1)
      else if fieldType =? BYTE then '(_, e, s1) <- rByte P s ;; Ok (e, s1)
      else if fieldType =? I16 then '(_, e, s1) <- rI16 P s ;; Ok (e, s1)
      else if fieldType =? I32 then '(_, e, s1) <- rI32 P s ;; Ok (e, s1)
      else if fieldType =? I64 then '(_, e, s1) <- rI64 P s ;; Ok (e, s1)
      else if fieldType =? DOUBLE then '(_, e, s1) <- rDouble P s ;; Ok (e, s1)
      else if fieldType =? STRING then '(_, e, s1) <- rString P s ;; Ok (e, s1)
      else if fieldType =? STRUCT then
        '(_, e, s1) <- rStructBegin P s ;;
        match e with
        | Some _ => Ok (e, s1)
        | None =>
          s2 <- skip_fields f maxDepth s1 ;;
          rStructEnd P s2
        end
      else if fieldType =? MAP then
        '((kt, vt, size), e, s1) <- rMapBegin P s ;;
        match e with
        | Some _ => Ok (e, s1)
        | None =>
          s2 <- repeat_ignoring (Z.to_nat size)
                  (fun s => '(_, s') <- skip f kt (maxDepth - 1) s ;;
                            skip f vt MaxSkipDepth s') s1 ;;
          rMapEnd P s2
        end
      else if fieldType =? SET then
        '((et, size), e, s1) <- rSetBegin P s ;;
        match e with
        | Some _ => Ok (e, s1)
        | None =>
          s2 <- repeat_ignoring (Z.to_nat size) (skip f et (maxDepth - 1)) s1 ;;
          rSetEnd P s2
        end
      else if fieldType =? LIST then
        '((et, size), e, s1) <- rListBegin P s ;;
        match e with
        | Some _ => Ok (e, s1)
        | None =>
          s2 <- repeat_ignoring (Z.to_nat size) (skip f et (maxDepth - 1)) s1 ;;
          rListEnd P s2
        end
      else Ok (None, s)
    end
(** the loop of lines 151-158: errors of ReadFieldBegin, Skip and ReadFieldEnd are dropped *)
with skip_fields (fuel : nat) (maxDepth : Z) : S -> outcome S :=
  fun s =>
    match fuel with
    | O => OutOfFuel
    | Datatypes.S f =>
      '((_, typeId, _), _, s1) <- rFieldBegin P s ;;
      if typeId =? STOP then Ok s1
      else
        '(_, s2) <- skip f typeId (maxDepth - 1) s1 ;;
        '(_, s3) <- rFieldEnd P s2 ;;
        skip_fields f maxDepth s3
    end.

(** tprotocol.go:108-110 *)
Definition skip_default (fuel : nat) (fieldType : Z) : wop S :=
  skip fuel fieldType MaxSkipDepth.
End Skip.
