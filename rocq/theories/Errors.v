(** Error classification: ttransport_exception.go and tprotocol_exception.go. *)
From Coq Require Import ZArith List Bool Lia.
From Verif Require Import Base.
Import ListNotations.
Open Scope Z_scope.

(** [TypeId()] of an error that has one with the signature [TypeId() int]
    (ttransport_exception.go:48, tprotocol_exception.go:49).  tApplicationException's
    method returns int32 (tapplication_exception.go:69), so it does not count. *)
Definition typeid_int (e : err) : option Z :=
  match e with
  | ETransport t => Some t
  | EProtocol t => Some t
  | _ => None
  end.

(** ttransport_exception.go:72-84.  The type assertion [e.(TTransportException)] is
    structural: it succeeds for every error with methods [Error() string] and
    [TypeId() int], in particular for protocol exceptions. *)
Definition transport_exc_from_os (e : option err) : option err :=
  match e with
  | None => None
  | Some e =>
    match typeid_int e with
    | Some _ => Some e
    | None =>
      match e with
      | EEof => Some (ETransport END_OF_FILE)
      | _ => Some (ETransport UNKNOWN_TRANSPORT_EXCEPTION)
      end
    end
  end.

(** tprotocol_exception.go:125-133 *)
Definition protocol_exc_from_transport (e : option err) : option err :=
  match e with
  | None => None
  | Some e =>
    match typeid_int e with
    | Some _ => Some e
    | None => Some (EProtocol UNKNOWN_PROTOCOL_EXCEPTION)
    end
  end.

(** tprotocol_exception.go:109-123.  The first type assertion is structural too,
    so a transport exception is returned unchanged by it. *)
Definition protocol_exc_from_os (e : option err) : option err :=
  match e with
  | None => None
  | Some e =>
    match typeid_int e with
    | Some _ => Some e
    | None =>
      match e with
      | EBase64 => Some (EProtocol INVALID_DATA)
      | _ => Some (EProtocol UNKNOWN_PROTOCOL_EXCEPTION)
      end
    end
  end.

(** tprotocol_exception.go:77-107: NewTProtocolExceptionReadField, ...WriteField,
    ...ReadStruct, ...WriteStruct differ only in the message text. They are only called
    with errors that have a [TypeId() int]. *)
Definition protocol_exc_wrap (e : err) : err :=
  let t := match typeid_int e with Some t => t | None => UNKNOWN_PROTOCOL_EXCEPTION end in
  EProtocol (if t =? UNKNOWN_PROTOCOL_EXCEPTION then INVALID_DATA else t).
