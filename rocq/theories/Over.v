(** TBinaryProtocol and TCompactProtocol over an arbitrary transport.  The code is that of
    Binary.v and Compact.v with the transport's methods as parameters; Binary.v and Compact.v are
    the instances for the plain streams of Transport.v ([binaryR_over] to [compactW_over]). *)
From Coq Require Import ZArith List Bool Lia.
From Verif Require Import Base Errors Transport Proto Binary Compact.
Import ListNotations.
Open Scope Z_scope.

(** io.CopyN(p.trans, strings.NewReader(s), len(s)) over a Write method, as [copy_n]. *)
Fixpoint copy_blocks_over {T} (write : bytes -> T -> outcome (Z * option err * T)) (fuel : nat)
  (bs : bytes) (w : T) : outcome (option err * T) :=
  match fuel with
  | O => Ok (None, w)
  | S f =>
    match bs with
    | [] => Ok (None, w)
    | _ :: _ =>
      '(_, e, w') <- write (firstn copy_block bs) w ;;
      match e with
      | Some e => Ok (Some e, w')
      | None => copy_blocks_over write f (skipn copy_block bs) w'
      end
    end
  end.
Definition copy_over {T} (write : bytes -> T -> outcome (Z * option err * T)) (bs : bytes) (w : T) :=
  copy_blocks_over write (length bs) bs w.

Section Writing.
Context {T : Type}.
Variable write : bytes -> T -> outcome (Z * option err * T).   (* p.trans.Write *)
Variable copy : bytes -> T -> outcome (option err * T).        (* io.CopyN to p.trans *)

(** ** TBinaryProtocol, writing *)
(** [_, e := p.trans.Write(v); return NewTProtocolExceptionFromOsError(e)] *)
Definition o_b_write (v : bytes) : wop T :=
  fun w => '(_, e, w') <- write v w ;; Ok (protocol_exc_from_os e, w').
(** tbinary_protocol.go:176-180 *)
Definition o_bWriteByte (value : Z) : wop T := o_b_write [value].
(** tbinary_protocol.go:182-188 *)
Definition o_bWriteI16 (value : Z) : wop T :=
  o_b_write [byte_of value 8; byte_of value 0].
(** tbinary_protocol.go:190-198 *)
Definition o_bWriteI32 (value : Z) : wop T :=
  o_b_write [byte_of value 24; byte_of value 16; byte_of value 8; byte_of value 0].
(** tbinary_protocol.go:200-212 *)
Definition o_bWriteI64 (value : Z) : wop T :=
  o_b_write [byte_of value 56; byte_of value 48; byte_of value 40; byte_of value 32;
           byte_of value 24; byte_of value 16; byte_of value 8; byte_of value 0].
(** tbinary_protocol.go:214-216; [value] is math.Float64bits(value) *)
Definition o_bWriteDouble (value : Z) : wop T := o_bWriteI64 (wraps 64 value).
(** tbinary_protocol.go:169-174 *)
Definition o_bWriteBool (value : bool) : wop T :=
  if value then o_bWriteByte 1 else o_bWriteByte 0.
(** tbinary_protocol.go:218-220, 231-238 *)
Definition o_bWriteString (value : bytes) : wop T :=
  o_bWriteI32 (wraps 32 (Z.of_nat (length value))) >>>
  (fun w => '(e, w') <- copy value w ;; Ok (protocol_exc_from_os e, w')).
(** tbinary_protocol.go:222-229 *)
Definition o_bWriteBinary (value : bytes) : wop T :=
  o_bWriteI32 (wraps 32 (Z.of_nat (length value))) >>> o_b_write value.
(** tbinary_protocol.go:68-94; TMessageType is an int32 *)
Definition o_bWriteMessageBegin (strictWrite : bool) (name : bytes) (typeId seqId : Z)
  : wop T :=
  if strictWrite then
    let version := Z.lor VERSION_1 (wrapu 32 typeId) in
    o_bWriteI32 (wraps 32 version) >>> o_bWriteString name >>> o_bWriteI32 seqId
  else
    o_bWriteString name >>> o_bWriteByte (wrapu 8 typeId) >>> o_bWriteI32 seqId.
(** tbinary_protocol.go:108-115 *)
Definition o_bWriteFieldBegin (name : bytes) (typeId id : Z) : wop T :=
  o_bWriteByte (ThriftTypeId typeId) >>> o_bWriteI16 id.
(** tbinary_protocol.go:121-124 *)
Definition o_bWriteFieldStop : wop T := o_bWriteByte STOP.
(** tbinary_protocol.go:126-137 *)
Definition o_bWriteMapBegin (keyType valueType size : Z) : wop T :=
  o_bWriteByte (ThriftTypeId keyType) >>> o_bWriteByte (ThriftTypeId valueType) >>>
  o_bWriteI32 (wraps 32 size).
(** tbinary_protocol.go:143-150 *)
Definition o_bWriteListBegin (elemType size : Z) : wop T :=
  o_bWriteByte (ThriftTypeId elemType) >>> o_bWriteI32 (wraps 32 size).
(** tbinary_protocol.go:156-163 *)
Definition o_bWriteSetBegin (elemType size : Z) : wop T :=
  o_bWriteByte (ThriftTypeId elemType) >>> o_bWriteI32 (wraps 32 size).
(** The writing half of TBinaryProtocol; the remaining methods
    (96-106, 117-119, 139-141, 152-154, 165-167) return nil. *)
Definition o_binaryW (strictWrite : bool) : wproto T := {|
  wMessageBegin := o_bWriteMessageBegin strictWrite;
  wMessageEnd := nop;
  wStructBegin := fun _ => nop;
  wStructEnd := nop;
  wFieldBegin := o_bWriteFieldBegin;
  wFieldEnd := nop;
  wFieldStop := o_bWriteFieldStop;
  wMapBegin := o_bWriteMapBegin;
  wMapEnd := nop;
  wListBegin := o_bWriteListBegin;
  wListEnd := nop;
  wSetBegin := o_bWriteSetBegin;
  wSetEnd := nop;
  wBool := o_bWriteBool;
  wByte := o_bWriteByte;
  wI16 := o_bWriteI16;
  wI32 := o_bWriteI32;
  wI64 := o_bWriteI64;
  wDouble := o_bWriteDouble;
  wString := o_bWriteString;
  wBinary := o_bWriteBinary
|}.

(** ** TCompactProtocol, writing *)
(** [p.trans.Write(bs)], returning the plain error. *)
Definition o_c_write_raw (bs : bytes) : wop (T * cstate) :=
  fun '(w, c) => '(_, e, w') <- write bs w ;; Ok (e, (w', c)).
(** [return NewTProtocolExceptionFromOsError(err)] after a step *)
Definition o_wrap_exc (m : wop (T * cstate)) : wop (T * cstate) :=
  fun s => '(e, s') <- m s ;; Ok (protocol_exc_from_os e, s').
(** tcompact_protocol.go:715-717 *)
Definition o_writeByteDirect (b : Z) : wop (T * cstate) := o_c_write_raw [b].
(** tcompact_protocol.go:645-664 *)
Definition o_writeVarint32 (n : Z) : wop (T * cstate) :=
  fun s => bs <- varint32_bytes 5 n ;; o_c_write_raw bs s.
Definition o_writeVarint64 (n : Z) : wop (T * cstate) :=
  fun s => bs <- varint64_bytes 10 n ;; o_c_write_raw bs s.
(** tcompact_protocol.go:290-293, 298-301, 306-309, 282-285 *)
Definition o_cWriteI16 (value : Z) : wop (T * cstate) := o_wrap_exc (o_writeVarint32 (int32ToZigzag value)).
Definition o_cWriteI32 (value : Z) : wop (T * cstate) := o_wrap_exc (o_writeVarint32 (int32ToZigzag value)).
Definition o_cWriteI64 (value : Z) : wop (T * cstate) := o_wrap_exc (o_writeVarint64 (int64ToZigzag value)).
Definition o_cWriteByte (value : Z) : wop (T * cstate) := o_wrap_exc (o_writeByteDirect value).
(** tcompact_protocol.go:314-319 *)
Definition o_cWriteDouble (value : Z) : wop (T * cstate) := o_wrap_exc (o_c_write_raw (le_bytes64 value)).
(** tcompact_protocol.go:333-343 *)
Definition o_cWriteBinary (bin : bytes) : wop (T * cstate) :=
  o_wrap_exc (o_writeVarint32 (wraps 32 (Z.of_nat (length bin)))) >>>
  (if (0 <? length bin)%nat then o_wrap_exc (o_c_write_raw bin) else nop).
(** tcompact_protocol.go:324-328 *)
Definition o_cWriteString (value : bytes) : wop (T * cstate) := o_cWriteBinary value.
(** tcompact_protocol.go:127-143 *)
Definition o_cWriteMessageBegin (name : bytes) (typeId seqid : Z) : wop (T * cstate) :=
  o_wrap_exc (o_writeByteDirect COMPACT_PROTOCOL_ID) >>>
  o_wrap_exc (o_writeByteDirect
     (Z.lor (Z.land COMPACT_VERSION COMPACT_VERSION_MASK)
        (Z.land (wrapu 8 (Z.shiftl (wrapu 8 typeId) COMPACT_TYPE_SHIFT_AMOUNT))
                COMPACT_TYPE_MASK))) >>>
  o_wrap_exc (o_writeVarint32 seqid) >>>
  o_cWriteString name.
(** tcompact_protocol.go:152-156 *)
Definition o_cWriteStructBegin (name : bytes) : wop (T * cstate) :=
  fun '(w, c) => Ok (None, (w, set_last c (lastFieldId c :: lastField c) 0)).
(** tcompact_protocol.go:163-167; indexing an empty stack panics *)
Definition o_cWriteStructEnd : wop (T * cstate) :=
  fun '(w, c) =>
    match lastField c with
    | [] => Panic
    | i :: l => Ok (None, (w, set_last c l i))
    end.
(** tcompact_protocol.go:184-219; [typeOverride = 255] means none *)
Definition o_writeFieldBeginInternal (typeId id typeOverride : Z) : wop (T * cstate) :=
  fun '(w, c) =>
    typeToWrite <- (if typeOverride =? 255 then getCompactType typeId
                    else Ok typeOverride) ;;
    let fieldId := id in
    let last := lastFieldId c in
    ((if (last <? fieldId) && (fieldId - last <=? 15)
      then o_writeByteDirect (Z.lor (wrapu 8 (Z.shiftl (fieldId - last) 4)) typeToWrite)
      else o_writeByteDirect typeToWrite >>> o_cWriteI16 id) >>>
     (fun '(w', c') => Ok (None, (w', set_last c' (lastField c') fieldId)))) (w, c).
(** tcompact_protocol.go:169-177 *)
Definition o_cWriteFieldBegin (name : bytes) (typeId id : Z) : wop (T * cstate) :=
  fun '(w, c) =>
    if typeId =? BOOL then Ok (None, (w, set_boolField c (Some (typeId, id))))
    else o_wrap_exc (o_writeFieldBeginInternal typeId id 255) (w, c).
(** tcompact_protocol.go:223-226 *)
Definition o_cWriteFieldStop : wop (T * cstate) := o_wrap_exc (o_writeByteDirect STOP).
(** tcompact_protocol.go:228-239 *)
Definition o_cWriteMapBegin (keyType valueType size : Z) : wop (T * cstate) :=
  if size =? 0 then o_wrap_exc (o_writeByteDirect 0)
  else
    o_wrap_exc (o_writeVarint32 (wraps 32 size)) >>>
    (fun s =>
       k <- getCompactType keyType ;;
       v <- getCompactType valueType ;;
       o_wrap_exc (o_writeByteDirect (Z.lor (wrapu 8 (Z.shiftl k 4)) v)) s).
(** tcompact_protocol.go:629-639 *)
Definition o_writeCollectionBegin (elemType size : Z) : wop (T * cstate) :=
  fun s =>
    t <- getCompactType elemType ;;
    (if size <=? 14
     then o_writeByteDirect (wrapu 8 (Z.lor (wraps 32 (Z.shiftl size 4)) t))
     else o_writeByteDirect (Z.lor 240 t) >>> o_writeVarint32 (wraps 32 size)) s.
(** tcompact_protocol.go:246-249, 256-259 *)
Definition o_cWriteListBegin (elemType size : Z) : wop (T * cstate) :=
  o_wrap_exc (o_writeCollectionBegin elemType size).
Definition o_cWriteSetBegin (elemType size : Z) : wop (T * cstate) :=
  o_wrap_exc (o_writeCollectionBegin elemType size).
(** tcompact_protocol.go:263-277 *)
Definition o_cWriteBool (value : bool) : wop (T * cstate) :=
  fun '(w, c) =>
    let v := if value then COMPACT_BOOLEAN_TRUE else COMPACT_BOOLEAN_FALSE in
    match booleanField c with
    | Some (t, id) =>
      '(e, (w', c')) <- o_writeFieldBeginInternal t id v (w, c) ;;
      Ok (protocol_exc_from_os e, (w', set_boolField c' None))
    | None => o_wrap_exc (o_writeByteDirect v) (w, c)
    end.
(** The writing half; the remaining methods return nil. *)
Definition o_compactW : wproto (T * cstate) := {|
  wMessageBegin := o_cWriteMessageBegin;
  wMessageEnd := nop;
  wStructBegin := o_cWriteStructBegin;
  wStructEnd := o_cWriteStructEnd;
  wFieldBegin := o_cWriteFieldBegin;
  wFieldEnd := nop;
  wFieldStop := o_cWriteFieldStop;
  wMapBegin := o_cWriteMapBegin;
  wMapEnd := nop;
  wListBegin := o_cWriteListBegin;
  wListEnd := nop;
  wSetBegin := o_cWriteSetBegin;
  wSetEnd := nop;
  wBool := o_cWriteBool;
  wByte := o_cWriteByte;
  wI16 := o_cWriteI16;
  wI32 := o_cWriteI32;
  wI64 := o_cWriteI64;
  wDouble := o_cWriteDouble;
  wString := o_cWriteString;
  wBinary := o_cWriteBinary
|}.
End Writing.

Section Reading.
Context {T : Type}.
Variable readAll : nat -> T -> Z * bytes * option err * T.     (* p.trans.ReadAll *)
Variable unread : T -> nat.     (* a bound on the unread bytes, for the unbounded loop of readVarint64 *)

(** ** TBinaryProtocol, reading *)
(** tbinary_protocol.go:456-463 *)
Definition o_b_readAll (n : nat) : rop T bytes :=
  fun r => let '(_, buf, e, r') := readAll n r in Ok (buf, protocol_exc_from_os e, r').
(** tbinary_protocol.go:387-391 *)
Definition o_bReadByte : rop T Z :=
  fun r => '(buf, e, r') <- o_b_readAll 1 r ;; Ok (at_ 0 buf, e, r').
(** tbinary_protocol.go:393-398 *)
Definition o_bReadI16 : rop T Z :=
  fun r => '(buf, e, r') <- o_b_readAll 2 r ;; Ok (wraps 16 (be_uint16 buf), e, r').
(** tbinary_protocol.go:400-405 *)
Definition o_bReadI32 : rop T Z :=
  fun r => '(buf, e, r') <- o_b_readAll 4 r ;; Ok (wraps 32 (be_uint32 buf), e, r').
(** tbinary_protocol.go:407-412 *)
Definition o_bReadI64 : rop T Z :=
  fun r => '(buf, e, r') <- o_b_readAll 8 r ;; Ok (wraps 64 (be_uint64 buf), e, r').
(** tbinary_protocol.go:414-419 *)
Definition o_bReadDouble : rop T Z :=
  fun r => '(buf, e, r') <- o_b_readAll 8 r ;; Ok (be_uint64 buf, e, r').
(** tbinary_protocol.go:378-385 *)
Definition o_bReadBool : rop T bool :=
  fun r => '(b, e, r') <- o_bReadByte r ;; Ok (b =? 1, e, r').
(** tbinary_protocol.go:480-492 *)
Definition o_bReadStringBody (size : Z) : rop T bytes :=
  fun r =>
    if size <? 0 then Ok ([], None, r)
    else let '(_, buf, e, r') := readAll (Z.to_nat size) r in
         Ok (buf, protocol_exc_from_os e, r').
(** tbinary_protocol.go:421-427 *)
Definition o_bReadString : rop T bytes :=
  fun r =>
    '(size, e, r1) <- o_bReadI32 r ;;
    match e with
    | Some _ => Ok ([], e, r1)
    | None => o_bReadStringBody size r1
    end.
(** tbinary_protocol.go:429-442; [make] with a negative length panics.
    The nil slice returned with an error is the empty list. *)
Definition o_bReadBinary : rop T bytes :=
  fun r =>
    '(size, e, r1) <- o_bReadI32 r ;;
    match e with
    | Some _ => Ok ([], e, r1)
    | None =>
      if size <? 0 then Panic
      else let '(_, buf, e', r2) := readAll (Z.to_nat size) r1 in
           Ok (buf, protocol_exc_from_os e', r2)
    end.
(** tbinary_protocol.go:244-282 *)
Definition o_bReadMessageBegin (strictRead : bool) : rop T (bytes * Z * Z) :=
  fun r =>
    '(size, e, r1) <- o_bReadI32 r ;;
    match e with
    | Some _ => Ok (([], 0, 0), protocol_exc_from_os e, r1)
    | None =>
      if size <? 0 then
        let typeId := Z.land size 255 in
        let version := Z.land size VERSION_MASK in
        if negb (version =? VERSION_1)
        then Ok (([], typeId, 0), Some (EProtocol BAD_VERSION), r1)
        else
          '(name, e1, r2) <- o_bReadString r1 ;;
          match e1 with
          | Some _ => Ok ((name, typeId, 0), protocol_exc_from_os e1, r2)
          | None =>
            '(seqId, e2, r3) <- o_bReadI32 r2 ;;
            Ok ((name, typeId, seqId), protocol_exc_from_os e2, r3)
          end
      else if strictRead
      then Ok (([], 0, 0), Some (EProtocol BAD_VERSION), r1)
      else
        '(name, e2, r2) <- o_bReadStringBody size r1 ;;
        match e2 with
        | Some _ => Ok ((name, 0, 0), e2, r2)
        | None =>
          '(b, e3, r3) <- o_bReadByte r2 ;;
          match e3 with
          | Some _ => Ok ((name, 0, 0), e3, r3)
          | None =>
            '(seqId, e4, r4) <- o_bReadI32 r3 ;;
            Ok ((name, b, seqId), e4, r4)
          end
        end
    end.
(** tbinary_protocol.go:296-306 *)
Definition o_bReadFieldBegin : rop T (bytes * Z * Z) :=
  fun r =>
    '(t, e, r1) <- o_bReadByte r ;;
    match e with
    | Some _ => Ok (([], t, 0), e, r1)
    | None =>
      if negb (t =? STOP) then
        '(id, e1, r2) <- o_bReadI16 r1 ;; Ok (([], t, id), e1, r2)
      else Ok (([], t, 0), None, r1)
    end.
(** tbinary_protocol.go:312-332 *)
Definition o_bReadMapBegin : rop T (Z * Z * Z) :=
  fun r =>
    '(k, e, r1) <- o_bReadByte r ;;
    match e with
    | Some _ => Ok ((0, 0, 0), protocol_exc_from_os e, r1)
    | None =>
      '(v, e1, r2) <- o_bReadByte r1 ;;
      match e1 with
      | Some _ => Ok ((k, 0, 0), protocol_exc_from_os e1, r2)
      | None =>
        '(size, e2, r3) <- o_bReadI32 r2 ;;
        Ok ((k, v, size), protocol_exc_from_os e2, r3)
      end
    end.
(** tbinary_protocol.go:338-352 *)
Definition o_bReadListBegin : rop T (Z * Z) :=
  fun r =>
    '(b, e, r1) <- o_bReadByte r ;;
    match e with
    | Some _ => Ok ((0, 0), protocol_exc_from_os e, r1)
    | None =>
      '(size, e1, r2) <- o_bReadI32 r1 ;;
      Ok ((b, size), protocol_exc_from_os e1, r2)
    end.
(** tbinary_protocol.go:358-372 *)
Definition o_bReadSetBegin : rop T (Z * Z) :=
  fun r =>
    '(b, e, r1) <- o_bReadByte r ;;
    match e with
    | Some _ => Ok ((0, 0), protocol_exc_from_os e, r1)
    | None =>
      '(size, e1, r2) <- o_bReadI32 r1 ;;
      Ok ((b, size), protocol_exc_from_os e1, r2)
    end.
(** The reading half of TBinaryProtocol; the remaining methods
    (284-294, 308-310, 334-336, 354-356, 374-376) return "" / nil. *)
Definition o_binaryR (strictRead : bool) : rproto T := {|
  rMessageBegin := o_bReadMessageBegin strictRead;
  rMessageEnd := nop;
  rStructBegin := fun r => Ok ([], None, r);
  rStructEnd := nop;
  rFieldBegin := o_bReadFieldBegin;
  rFieldEnd := nop;
  rMapBegin := o_bReadMapBegin;
  rMapEnd := nop;
  rListBegin := o_bReadListBegin;
  rListEnd := nop;
  rSetBegin := o_bReadSetBegin;
  rSetEnd := nop;
  rBool := o_bReadBool;
  rByte := o_bReadByte;
  rI16 := o_bReadI16;
  rI32 := o_bReadI32;
  rI64 := o_bReadI64;
  rDouble := o_bReadDouble;
  rString := o_bReadString;
  rBinary := o_bReadBinary
|}.

(** ** TCompactProtocol, reading *)
(** tcompact_protocol.go:531-538 *)
Definition o_cReadByte : rop (T * cstate) Z :=
  fun '(r, c) =>
    let '(_, buf, e, r') := readAll 1 r in
    match e with
    | Some _ => Ok (0, protocol_exc_from_os e, (r', c))
    | None => Ok (at_ 0 buf, None, (r', c))
    end.
(** The loop of o_readVarint64, tcompact_protocol.go:745-760.  The loop has no bound in Go; the
    fuel [o_readVarint64] passes is the number of unread bytes and events plus one, which
    suffices because each round reads one byte or stops
    (CompactRead.v, [readVarint64_fuel]).
    A (0, nil) Read yields byte 0 and ends the loop. *)
Fixpoint o_readVarint64_loop (fuel : nat) (shift result : Z) : rop (T * cstate) Z :=
  fun s =>
    match fuel with
    | O => OutOfFuel
    | S f =>
      '(b, e, s') <- o_cReadByte s ;;
      match e with
      | Some _ => Ok (0, e, s')
      | None =>
        let result' := Z.lor result
          (if shift <? 64 then wraps 64 (Z.shiftl (Z.land b 127) shift) else 0) in
        if negb (Z.land b 128 =? 128) then Ok (result', None, s')
        else o_readVarint64_loop f (shift + 7) result' s'
      end
    end.
Definition o_readVarint64 : rop (T * cstate) Z :=
  fun s => o_readVarint64_loop (S (unread (fst s))) 0 0 s.
(** tcompact_protocol.go:734-739 *)
Definition o_readVarint32 : rop (T * cstate) Z :=
  fun s => '(v, e, s') <- o_readVarint64 s ;; Ok (wraps 32 v, e, s').
(** tcompact_protocol.go:551-558 *)
Definition o_cReadI32 : rop (T * cstate) Z :=
  fun s =>
    '(v, e, s') <- o_readVarint32 s ;;
    match e with
    | Some _ => Ok (0, protocol_exc_from_os e, s')
    | None => Ok (zigzagToInt32 v, None, s')
    end.
(** tcompact_protocol.go:543-546 *)
Definition o_cReadI16 : rop (T * cstate) Z :=
  fun s => '(v, e, s') <- o_cReadI32 s ;; Ok (wraps 16 v, e, s').
(** tcompact_protocol.go:563-570 *)
Definition o_cReadI64 : rop (T * cstate) Z :=
  fun s =>
    '(v, e, s') <- o_readVarint64 s ;;
    match e with
    | Some _ => Ok (0, protocol_exc_from_os e, s')
    | None => Ok (zigzagToInt64 v, None, s')
    end.
(** tcompact_protocol.go:575-582 *)
Definition o_cReadDouble : rop (T * cstate) Z :=
  fun '(r, c) =>
    let '(_, buf, e, r') := readAll 8 r in
    match e with
    | Some _ => Ok (0, protocol_exc_from_os e, (r', c))
    | None => Ok (le_uint64 buf, None, (r', c))
    end.
(** tcompact_protocol.go:595-607; the results of ReadAll are dropped; [make] with a
    negative length panics *)
Definition o_cReadBinary : rop (T * cstate) bytes :=
  fun s =>
    '(length, e, (r, c)) <- o_readVarint32 s ;;
    match e with
    | Some _ => Ok ([], protocol_exc_from_os e, (r, c))
    | None =>
      if length =? 0 then Ok ([], None, (r, c))
      else if length <? 0 then Panic
      else let '(_, buf, _, r') := readAll (Z.to_nat length) r in
           Ok (buf, None, (r', c))
    end.
(** tcompact_protocol.go:587-590 *)
Definition o_cReadString : rop (T * cstate) bytes :=
  fun s => '(v, e, s') <- o_cReadBinary s ;; Ok (v, protocol_exc_from_os e, s').
(** tcompact_protocol.go:519-526 *)
Definition o_cReadBool : rop (T * cstate) bool :=
  fun '(r, c) =>
    if boolValueIsNotNull c
    then Ok (boolValue c, None, (r, set_boolValue c (boolValue c) false))
    else '(v, e, s') <- o_cReadByte (r, c) ;; Ok (v =? COMPACT_BOOLEAN_TRUE, e, s').
(** tcompact_protocol.go:352-376.  The error of the first ReadByte is overwritten. *)
Definition o_cReadMessageBegin : rop (T * cstate) (bytes * Z * Z) :=
  fun s =>
    '(protocolId, _, s1) <- o_cReadByte s ;;
    if negb (protocolId =? COMPACT_PROTOCOL_ID)
    then Ok (([], 0, 0), Some (EProtocol BAD_VERSION), s1)
    else
      '(versionAndType, e, s2) <- o_cReadByte s1 ;;
      let version := Z.land versionAndType COMPACT_VERSION_MASK in
      let typeId := Z.land (Z.shiftr versionAndType COMPACT_TYPE_SHIFT_AMOUNT) 3 in
      match e with
      | Some _ => Ok (([], typeId, 0), e, s2)
      | None =>
        if negb (version =? COMPACT_VERSION)
        then Ok (([], typeId, 0), Some (EProtocol BAD_VERSION), s2)
        else
          '(seqId, e1, s3) <- o_readVarint32 s2 ;;
          match e1 with
          | Some _ => Ok (([], typeId, seqId), protocol_exc_from_os e1, s3)
          | None =>
            '(name, e2, s4) <- o_cReadString s3 ;;
            Ok ((name, typeId, seqId), e2, s4)
          end
      end.
(** tcompact_protocol.go:384-388 *)
Definition o_cReadStructBegin : rop (T * cstate) bytes :=
  fun '(r, c) => Ok ([], None, (r, set_last c (lastFieldId c :: lastField c) 0)).
(** tcompact_protocol.go:394-398: the stack is not popped *)
Definition o_cReadStructEnd : wop (T * cstate) :=
  fun '(r, c) =>
    match lastField c with
    | [] => Panic
    | i :: _ => Ok (None, (r, set_last c (lastField c) i))
    end.
(** tcompact_protocol.go:403-442 *)
Definition o_cReadFieldBegin : rop (T * cstate) (bytes * Z * Z) :=
  fun s =>
    '(t, e, s1) <- o_cReadByte s ;;
    match e with
    | Some _ => Ok (([], 0, 0), e, s1)
    | None =>
      if Z.land t 15 =? STOP then Ok (([], STOP, 0), None, s1)
      else
        let modifier := wraps 16 (Z.shiftr (Z.land t 240) 4) in
        '(id, e1, s2) <-
           (if modifier =? 0 then o_cReadI16 s1
            else Ok (wraps 16 (wraps 16 (lastFieldId (snd s1)) + modifier), None, s1)) ;;
        match e1 with
        | Some _ => Ok (([], 0, id), e1, s2)
        | None =>
          let '(typeId, e2) := getTType (Z.land t 15) in
          match e2 with
          | Some _ => Ok (([], typeId, id), protocol_exc_from_os e2, s2)
          | None =>
            let '(r, c) := s2 in
            let c1 := if isBoolType t
                      then set_boolValue c (Z.land t 15 =? COMPACT_BOOLEAN_TRUE) true
                      else c in
            Ok (([], typeId, id), None, (r, set_last c1 (lastField c1) id))
          end
        end
    end.
(** tcompact_protocol.go:451-468; errors of getTType are dropped *)
Definition o_cReadMapBegin : rop (T * cstate) (Z * Z * Z) :=
  fun s =>
    '(size, e, s1) <- o_readVarint32 s ;;
    match e with
    | Some _ => Ok ((0, 0, size), protocol_exc_from_os e, s1)
    | None =>
      '(kv, e1, s2) <- (if negb (size =? 0) then o_cReadByte s1 else Ok (STOP, None, s1)) ;;
      match e1 with
      | Some _ => Ok ((0, 0, size), e1, s2)
      | None =>
        Ok ((fst (getTType (Z.shiftr kv 4)), fst (getTType (Z.land kv 15)), size),
            None, s2)
      end
    end.
(** tcompact_protocol.go:478-498 *)
Definition o_cReadListBegin : rop (T * cstate) (Z * Z) :=
  fun s =>
    '(st, e, s1) <- o_cReadByte s ;;
    match e with
    | Some _ => Ok ((0, 0), e, s1)
    | None =>
      let size := Z.land (Z.shiftr st 4) 15 in
      '(size2, e1, s2) <- (if size =? 15 then o_readVarint32 s1 else Ok (size, None, s1)) ;;
      match e1 with
      | Some _ => Ok ((0, size), protocol_exc_from_os e1, s2)
      | None =>
        let '(elemType, e2) := getTType st in
        Ok ((elemType, size2), protocol_exc_from_os e2, s2)
      end
    end.
(** The reading half; ReadSetBegin is ReadListBegin (508-510); the remaining methods return
    nil. *)
Definition o_compactR : rproto (T * cstate) := {|
  rMessageBegin := o_cReadMessageBegin;
  rMessageEnd := nop;
  rStructBegin := o_cReadStructBegin;
  rStructEnd := o_cReadStructEnd;
  rFieldBegin := o_cReadFieldBegin;
  rFieldEnd := nop;
  rMapBegin := o_cReadMapBegin;
  rMapEnd := nop;
  rListBegin := o_cReadListBegin;
  rListEnd := nop;
  rSetBegin := o_cReadListBegin;
  rSetEnd := nop;
  rBool := o_cReadBool;
  rByte := o_cReadByte;
  rI16 := o_cReadI16;
  rI32 := o_cReadI32;
  rI64 := o_cReadI64;
  rDouble := o_cReadDouble;
  rString := o_cReadString;
  rBinary := o_cReadBinary
|}.
End Reading.

(** The plain streams. *)
Definition plain_write (bs : bytes) (w : wt) : outcome (Z * option err * wt) := Ok (twrite bs w).
Definition plain_copy (bs : bytes) (w : wt) : outcome (option err * wt) := Ok (copy_n bs w).
Lemma binaryW_over : forall strict, o_binaryW plain_write plain_copy strict = binaryW strict.
Proof. reflexivity. Qed.
Lemma compactW_over : o_compactW plain_write = compactW.
Proof. reflexivity. Qed.
Lemma binaryR_over : forall strict, o_binaryR read_all strict = binaryR strict.
Proof. reflexivity. Qed.
Lemma compactR_over : o_compactR read_all rt_size = compactR.
Proof. reflexivity. Qed.
Lemma plain_copy_over : forall bs w, copy_over plain_write bs w = plain_copy bs w.
Proof.
  unfold copy_over, plain_copy, copy_n. intro bs. generalize (length bs) as f.
  intros f. revert bs. induction f as [|f IH]; intros [|b bs] w; try reflexivity.
  cbn [copy_blocks_over copy_blocks plain_write obind].
  destruct (twrite (firstn copy_block (b :: bs)) w) as [[n [e|]] w']; [reflexivity|apply IH].
Qed.
