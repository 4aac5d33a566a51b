(** TApplicationException, tapplication_exception.go. *)
From Coq Require Import ZArith List Bool Lia.
From Verif Require Import Base Errors Transport Proto Skip Values.
Import ListNotations.
Open Scope Z_scope.

(** tapplication_exception.go:22-31 *)
Definition UNKNOWN_APPLICATION_EXCEPTION : Z := 0.
Definition UNKNOWN_METHOD : Z := 1.
Definition INVALID_MESSAGE_TYPE_EXCEPTION : Z := 2.
Definition WRONG_METHOD_NAME : Z := 3.
Definition BAD_SEQUENCE_ID : Z := 4.
Definition MISSING_RESULT : Z := 5.
Definition INTERNAL_ERROR : Z := 6.
Definition PROTOCOL_ERROR : Z := 7.

(** An exception is its type and its message (44-62). *)
Record appexc : Type := MkExc { x_type : Z; x_msg : bytes }.

Definition s_tapp : bytes :=
  [84; 65; 112; 112; 108; 105; 99; 97; 116; 105; 111; 110; 69; 120; 99; 101; 112; 116; 105; 111; 110].
Definition s_message : bytes := [109; 101; 115; 115; 97; 103; 101].
Definition s_type : bytes := [116; 121; 112; 101].

Section App.
Context {S : Type}.

(** The field loop of Read, 88-129; [fuel] bounds the number of fields plus what Skip needs. *)
Fixpoint app_fields (R : rproto S) (MaxSkipDepth : Z) (fuel : nat) (message : bytes) (type_ : Z)
  : hop S appexc :=
  match fuel with
  | O => fun _ => OutOfFuel
  | Datatypes.S f =>
    '(_, ttype, id) <-- hlift (rFieldBegin R) ;;
    if ttype =? STOP then hret (MkExc type_ message)
    else
      '(m', t') <--
        (if id =? 1 then
           if ttype =? STRING then m <-- hlift (rString R) ;; hret (m, type_)
           else _ <-- hdo (skip_default R MaxSkipDepth f ttype) ;; hret (message, type_)
         else if id =? 2 then
           if ttype =? I32 then t <-- hlift (rI32 R) ;; hret (message, t)
           else _ <-- hdo (skip_default R MaxSkipDepth f ttype) ;; hret (message, type_)
         else _ <-- hdo (skip_default R MaxSkipDepth f ttype) ;; hret (message, type_)) ;;
      _ <-- hdo (rFieldEnd R) ;;
      app_fields R MaxSkipDepth f m' t'
  end.

(** Read, 72-138: the returned exception (None is nil) and error; the error of ReadStructEnd
    comes together with the exception. *)
Definition app_read (R : rproto S) (MaxSkipDepth : Z) (fuel : nat) : rop S (option appexc) :=
  fun s =>
    '(_, e, s1) <- rStructBegin R s ;;
    match e with
    | Some _ => Ok (None, e, s1)
    | None =>
      '(r, s2) <- app_fields R MaxSkipDepth fuel [] UNKNOWN_APPLICATION_EXCEPTION s1 ;;
      match r with
      | inr e => Ok (None, Some e, s2)
      | inl x => '(e, s3) <- rStructEnd R s2 ;; Ok (Some x, e, s3)
      end
    end.

(** Write, 140-174: the error of WriteStructBegin is overwritten by the next call's. *)
Definition app_write (W : wproto S) (x : appexc) : wop S :=
  fun s =>
    '(_, s1) <- wStructBegin W s_tapp s ;;
    ((match x_msg x with
      | [] => nop
      | m => wFieldBegin W s_message STRING 1 >>> wString W m >>> wFieldEnd W
      end) >>>
     wFieldBegin W s_type I32 2 >>> wI32 W (x_type x) >>> wFieldEnd W >>>
     wFieldStop W >>> wStructEnd W) s1.
End App.
