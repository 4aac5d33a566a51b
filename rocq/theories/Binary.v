(** TBinaryProtocol, tbinary_protocol.go.
    [setReadLength] (465-468) is unexported and never called, so
    [_CheckReadLength] stays false and [checkReadLength] (470-478) returns nil: it is
    left out of the model. *)
From Coq Require Import ZArith List Bool Lia.
From Verif Require Import Base Errors Transport Proto.
Import ListNotations.
Open Scope Z_scope.

(** tprotocol.go:22-25 *)
Definition VERSION_MASK := 4294901760.  (* 0xffff0000 *)
Definition VERSION_1 := 2147549184.     (* 0x80010000 *)

(** ttype.go:56-64 *)
Definition ThriftTypeId (t : Z) : Z := if t =? BINARY then STRING else t.

(** ** Writing *)

(** [_, e := p.trans.Write(v); return NewTProtocolExceptionFromOsError(e)] *)
Definition b_write (v : bytes) : wop wt :=
  fun w => let '(_, e, w') := twrite v w in Ok (protocol_exc_from_os e, w').

(** byte(0xff & (value >> k)) *)
Definition byte_of (value k : Z) : Z := wrapu 8 (Z.land 255 (Z.shiftr value k)).

(** tbinary_protocol.go:176-180 *)
Definition bWriteByte (value : Z) : wop wt := b_write [value].
(** tbinary_protocol.go:182-188 *)
Definition bWriteI16 (value : Z) : wop wt :=
  b_write [byte_of value 8; byte_of value 0].
(** tbinary_protocol.go:190-198 *)
Definition bWriteI32 (value : Z) : wop wt :=
  b_write [byte_of value 24; byte_of value 16; byte_of value 8; byte_of value 0].
(** tbinary_protocol.go:200-212 *)
Definition bWriteI64 (value : Z) : wop wt :=
  b_write [byte_of value 56; byte_of value 48; byte_of value 40; byte_of value 32;
           byte_of value 24; byte_of value 16; byte_of value 8; byte_of value 0].
(** tbinary_protocol.go:214-216; [value] is math.Float64bits(value) *)
Definition bWriteDouble (value : Z) : wop wt := bWriteI64 (wraps 64 value).
(** tbinary_protocol.go:169-174 *)
Definition bWriteBool (value : bool) : wop wt :=
  if value then bWriteByte 1 else bWriteByte 0.
(** tbinary_protocol.go:218-220, 231-238 *)
Definition bWriteString (value : bytes) : wop wt :=
  bWriteI32 (wraps 32 (Z.of_nat (length value))) >>>
  (fun w => let '(e, w') := copy_n value w in Ok (protocol_exc_from_os e, w')).
(** tbinary_protocol.go:222-229 *)
Definition bWriteBinary (value : bytes) : wop wt :=
  bWriteI32 (wraps 32 (Z.of_nat (length value))) >>> b_write value.
(** tbinary_protocol.go:68-94; TMessageType is an int32 *)
Definition bWriteMessageBegin (strictWrite : bool) (name : bytes) (typeId seqId : Z)
  : wop wt :=
  if strictWrite then
    let version := Z.lor VERSION_1 (wrapu 32 typeId) in
    bWriteI32 (wraps 32 version) >>> bWriteString name >>> bWriteI32 seqId
  else
    bWriteString name >>> bWriteByte (wrapu 8 typeId) >>> bWriteI32 seqId.
(** tbinary_protocol.go:108-115 *)
Definition bWriteFieldBegin (name : bytes) (typeId id : Z) : wop wt :=
  bWriteByte (ThriftTypeId typeId) >>> bWriteI16 id.
(** tbinary_protocol.go:121-124 *)
Definition bWriteFieldStop : wop wt := bWriteByte STOP.
(** tbinary_protocol.go:126-137 *)
Definition bWriteMapBegin (keyType valueType size : Z) : wop wt :=
  bWriteByte (ThriftTypeId keyType) >>> bWriteByte (ThriftTypeId valueType) >>>
  bWriteI32 (wraps 32 size).
(** tbinary_protocol.go:143-150 *)
Definition bWriteListBegin (elemType size : Z) : wop wt :=
  bWriteByte (ThriftTypeId elemType) >>> bWriteI32 (wraps 32 size).
(** tbinary_protocol.go:156-163 *)
Definition bWriteSetBegin (elemType size : Z) : wop wt :=
  bWriteByte (ThriftTypeId elemType) >>> bWriteI32 (wraps 32 size).

(** The writing half of TBinaryProtocol; the remaining methods
    (96-106, 117-119, 139-141, 152-154, 165-167) return nil. *)
Definition binaryW (strictWrite : bool) : wproto wt := {|
  wMessageBegin := bWriteMessageBegin strictWrite;
  wMessageEnd := nop;
  wStructBegin := fun _ => nop;
  wStructEnd := nop;
  wFieldBegin := bWriteFieldBegin;
  wFieldEnd := nop;
  wFieldStop := bWriteFieldStop;
  wMapBegin := bWriteMapBegin;
  wMapEnd := nop;
  wListBegin := bWriteListBegin;
  wListEnd := nop;
  wSetBegin := bWriteSetBegin;
  wSetEnd := nop;
  wBool := bWriteBool;
  wByte := bWriteByte;
  wI16 := bWriteI16;
  wI32 := bWriteI32;
  wI64 := bWriteI64;
  wDouble := bWriteDouble;
  wString := bWriteString;
  wBinary := bWriteBinary
|}.

(** ** Reading *)

(** tbinary_protocol.go:456-463 *)
Definition b_readAll (n : nat) : rop rt bytes :=
  fun r => let '(_, buf, e, r') := read_all n r in Ok (buf, protocol_exc_from_os e, r').

(** encoding/binary BigEndian.Uint16/Uint32/Uint64 *)
Definition be_uint16 (b : bytes) : Z := Z.lor (at_ 1 b) (Z.shiftl (at_ 0 b) 8).
Definition be_uint32 (b : bytes) : Z :=
  Z.lor (at_ 3 b) (Z.lor (Z.shiftl (at_ 2 b) 8)
    (Z.lor (Z.shiftl (at_ 1 b) 16) (Z.shiftl (at_ 0 b) 24))).
Definition be_uint64 (b : bytes) : Z :=
  Z.lor (at_ 7 b) (Z.lor (Z.shiftl (at_ 6 b) 8)
    (Z.lor (Z.shiftl (at_ 5 b) 16) (Z.lor (Z.shiftl (at_ 4 b) 24)
      (Z.lor (Z.shiftl (at_ 3 b) 32) (Z.lor (Z.shiftl (at_ 2 b) 40)
        (Z.lor (Z.shiftl (at_ 1 b) 48) (Z.shiftl (at_ 0 b) 56))))))).

(** tbinary_protocol.go:387-391 *)
Definition bReadByte : rop rt Z :=
  fun r => '(buf, e, r') <- b_readAll 1 r ;; Ok (at_ 0 buf, e, r').
(** tbinary_protocol.go:393-398 *)
Definition bReadI16 : rop rt Z :=
  fun r => '(buf, e, r') <- b_readAll 2 r ;; Ok (wraps 16 (be_uint16 buf), e, r').
(** tbinary_protocol.go:400-405 *)
Definition bReadI32 : rop rt Z :=
  fun r => '(buf, e, r') <- b_readAll 4 r ;; Ok (wraps 32 (be_uint32 buf), e, r').
(** tbinary_protocol.go:407-412 *)
Definition bReadI64 : rop rt Z :=
  fun r => '(buf, e, r') <- b_readAll 8 r ;; Ok (wraps 64 (be_uint64 buf), e, r').
(** tbinary_protocol.go:414-419 *)
Definition bReadDouble : rop rt Z :=
  fun r => '(buf, e, r') <- b_readAll 8 r ;; Ok (be_uint64 buf, e, r').
(** tbinary_protocol.go:378-385 *)
Definition bReadBool : rop rt bool :=
  fun r => '(b, e, r') <- bReadByte r ;; Ok (b =? 1, e, r').
(** tbinary_protocol.go:480-492 *)
Definition bReadStringBody (size : Z) : rop rt bytes :=
  fun r =>
    if size <? 0 then Ok ([], None, r)
    else let '(_, buf, e, r') := read_all (Z.to_nat size) r in
         Ok (buf, protocol_exc_from_os e, r').
(** tbinary_protocol.go:421-427 *)
Definition bReadString : rop rt bytes :=
  fun r =>
    '(size, e, r1) <- bReadI32 r ;;
    match e with
    | Some _ => Ok ([], e, r1)
    | None => bReadStringBody size r1
    end.
(** tbinary_protocol.go:429-442; [make] with a negative length panics.
    The nil slice returned with an error is the empty list. *)
Definition bReadBinary : rop rt bytes :=
  fun r =>
    '(size, e, r1) <- bReadI32 r ;;
    match e with
    | Some _ => Ok ([], e, r1)
    | None =>
      if size <? 0 then Panic
      else let '(_, buf, e', r2) := read_all (Z.to_nat size) r1 in
           Ok (buf, protocol_exc_from_os e', r2)
    end.
(** tbinary_protocol.go:244-282 *)
Definition bReadMessageBegin (strictRead : bool) : rop rt (bytes * Z * Z) :=
  fun r =>
    '(size, e, r1) <- bReadI32 r ;;
    match e with
    | Some _ => Ok (([], 0, 0), protocol_exc_from_os e, r1)
    | None =>
      if size <? 0 then
        let typeId := Z.land size 255 in
        let version := Z.land size VERSION_MASK in
        if negb (version =? VERSION_1)
        then Ok (([], typeId, 0), Some (EProtocol BAD_VERSION), r1)
        else
          '(name, e1, r2) <- bReadString r1 ;;
          match e1 with
          | Some _ => Ok ((name, typeId, 0), protocol_exc_from_os e1, r2)
          | None =>
            '(seqId, e2, r3) <- bReadI32 r2 ;;
            Ok ((name, typeId, seqId), protocol_exc_from_os e2, r3)
          end
      else if strictRead
      then Ok (([], 0, 0), Some (EProtocol BAD_VERSION), r1)
      else
        '(name, e2, r2) <- bReadStringBody size r1 ;;
        match e2 with
        | Some _ => Ok ((name, 0, 0), e2, r2)
        | None =>
          '(b, e3, r3) <- bReadByte r2 ;;
          match e3 with
          | Some _ => Ok ((name, 0, 0), e3, r3)
          | None =>
            '(seqId, e4, r4) <- bReadI32 r3 ;;
            Ok ((name, b, seqId), e4, r4)
          end
        end
    end.
(** tbinary_protocol.go:296-306 *)
Definition bReadFieldBegin : rop rt (bytes * Z * Z) :=
  fun r =>
    '(t, e, r1) <- bReadByte r ;;
    match e with
    | Some _ => Ok (([], t, 0), e, r1)
    | None =>
      if negb (t =? STOP) then
        '(id, e1, r2) <- bReadI16 r1 ;; Ok (([], t, id), e1, r2)
      else Ok (([], t, 0), None, r1)
    end.
(** tbinary_protocol.go:312-332 *)
Definition bReadMapBegin : rop rt (Z * Z * Z) :=
  fun r =>
    '(k, e, r1) <- bReadByte r ;;
    match e with
    | Some _ => Ok ((0, 0, 0), protocol_exc_from_os e, r1)
    | None =>
      '(v, e1, r2) <- bReadByte r1 ;;
      match e1 with
      | Some _ => Ok ((k, 0, 0), protocol_exc_from_os e1, r2)
      | None =>
        '(size, e2, r3) <- bReadI32 r2 ;;
        Ok ((k, v, size), protocol_exc_from_os e2, r3)
      end
    end.
(** tbinary_protocol.go:338-352 *)
Definition bReadListBegin : rop rt (Z * Z) :=
  fun r =>
    '(b, e, r1) <- bReadByte r ;;
    match e with
    | Some _ => Ok ((0, 0), protocol_exc_from_os e, r1)
    | None =>
      '(size, e1, r2) <- bReadI32 r1 ;;
      Ok ((b, size), protocol_exc_from_os e1, r2)
    end.
(** tbinary_protocol.go:358-372 *)
Definition bReadSetBegin : rop rt (Z * Z) :=
  fun r =>
    '(b, e, r1) <- bReadByte r ;;
    match e with
    | Some _ => Ok ((0, 0), protocol_exc_from_os e, r1)
    | None =>
      '(size, e1, r2) <- bReadI32 r1 ;;
      Ok ((b, size), protocol_exc_from_os e1, r2)
    end.

(** The reading half of TBinaryProtocol; the remaining methods
    (284-294, 308-310, 334-336, 354-356, 374-376) return "" / nil. *)
Definition binaryR (strictRead : bool) : rproto rt := {|
  rMessageBegin := bReadMessageBegin strictRead;
  rMessageEnd := nop;
  rStructBegin := fun r => Ok ([], None, r);
  rStructEnd := nop;
  rFieldBegin := bReadFieldBegin;
  rFieldEnd := nop;
  rMapBegin := bReadMapBegin;
  rMapEnd := nop;
  rListBegin := bReadListBegin;
  rListEnd := nop;
  rSetBegin := bReadSetBegin;
  rSetEnd := nop;
  rBool := bReadBool;
  rByte := bReadByte;
  rI16 := bReadI16;
  rI32 := bReadI32;
  rI64 := bReadI64;
  rDouble := bReadDouble;
  rString := bReadString;
  rBinary := bReadBinary
|}.
