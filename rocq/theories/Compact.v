(** TCompactProtocol, tcompact_protocol.go. *)
From Coq Require Import ZArith List Bool Lia.
From Verif Require Import Base Errors Transport Proto.
Import ListNotations.
Open Scope Z_scope.

(** tcompact_protocol.go:29-35 *)
Definition COMPACT_PROTOCOL_ID := 130. (* 0x82 *)
Definition COMPACT_VERSION := 1.
Definition COMPACT_VERSION_MASK := 31. (* 0x1f *)
Definition COMPACT_TYPE_MASK := 224.   (* 0xE0 *)
Definition COMPACT_TYPE_SHIFT_AMOUNT := 5.

(** tcompact_protocol.go:39-52 *)
Definition COMPACT_BOOLEAN_TRUE := 1.
Definition COMPACT_BOOLEAN_FALSE := 2.
Definition COMPACT_BYTE := 3.
Definition COMPACT_I16 := 4.
Definition COMPACT_I32 := 5.
Definition COMPACT_I64 := 6.
Definition COMPACT_DOUBLE := 7.
Definition COMPACT_BINARY := 8.
Definition COMPACT_LIST := 9.
Definition COMPACT_SET := 10.
Definition COMPACT_MAP := 11.
Definition COMPACT_STRUCT := 12.

(** tcompact_protocol.go:59-74 and 846-848: a table of UTF16+1 = 18 entries, those not
    set explicitly are 0; indexing beyond it panics. *)
Definition getCompactType (t : Z) : outcome Z :=
  if (t <? 0) || (17 <? t) then Panic
  else if t =? STOP then Ok STOP
  else if t =? BOOL then Ok COMPACT_BOOLEAN_TRUE
  else if t =? BYTE then Ok COMPACT_BYTE
  else if t =? I16 then Ok COMPACT_I16
  else if t =? I32 then Ok COMPACT_I32
  else if t =? I64 then Ok COMPACT_I64
  else if t =? DOUBLE then Ok COMPACT_DOUBLE
  else if t =? STRING then Ok COMPACT_BINARY
  else if t =? LIST then Ok COMPACT_LIST
  else if t =? SET then Ok COMPACT_SET
  else if t =? MAP then Ok COMPACT_MAP
  else if t =? STRUCT then Ok COMPACT_STRUCT
  else Ok 0.

(** tcompact_protocol.go:812-841.  The case for COMPACT_BOOLEAN_FALSE is empty (Go has no
    implicit fall-through), so 2 ends in the final error return. *)
Definition getTType (t : Z) : Z * option err :=
  let c := Z.land t 15 in
  if c =? STOP then (STOP, None)
  else if c =? COMPACT_BOOLEAN_FALSE then (STOP, Some (EOther 0))
  else if c =? COMPACT_BOOLEAN_TRUE then (BOOL, None)
  else if c =? COMPACT_BYTE then (BYTE, None)
  else if c =? COMPACT_I16 then (I16, None)
  else if c =? COMPACT_I32 then (I32, None)
  else if c =? COMPACT_I64 then (I64, None)
  else if c =? COMPACT_DOUBLE then (DOUBLE, None)
  else if c =? COMPACT_BINARY then (STRING, None)
  else if c =? COMPACT_LIST then (LIST, None)
  else if c =? COMPACT_SET then (SET, None)
  else if c =? COMPACT_MAP then (MAP, None)
  else if c =? COMPACT_STRUCT then (STRUCT, None)
  else (STOP, Some (EOther 0)).

(** The mutable fields of a TCompactProtocol, tcompact_protocol.go:86-108;
    [lastField] has its last element first; [booleanField] keeps type and id of the
    pending TField (its name is never used again). *)
Record cstate : Type := MkC {
  lastField : list Z;
  lastFieldId : Z;
  booleanField : option (Z * Z);
  boolValue : bool;
  boolValueIsNotNull : bool
}.

(** NewTCompactProtocol, tcompact_protocol.go:115-117 *)
Definition cinit : cstate := MkC [] 0 None false false.

Definition set_last (c : cstate) (l : list Z) (i : Z) : cstate :=
  MkC l i (booleanField c) (boolValue c) (boolValueIsNotNull c).
Definition set_boolField (c : cstate) (f : option (Z * Z)) : cstate :=
  MkC (lastField c) (lastFieldId c) f (boolValue c) (boolValueIsNotNull c).
Definition set_boolValue (c : cstate) (v nn : bool) : cstate :=
  MkC (lastField c) (lastFieldId c) (booleanField c) v nn.

(** ** Writing *)

Definition cw := (wt * cstate)%type.

(** [p.trans.Write(bs)], returning the plain error. *)
Definition c_write_raw (bs : bytes) : wop cw :=
  fun '(w, c) => let '(_, e, w') := twrite bs w in Ok (e, (w', c)).

(** [return NewTProtocolExceptionFromOsError(err)] after a step *)
Definition wrap_exc (m : wop cw) : wop cw :=
  fun s => '(e, s') <- m s ;; Ok (protocol_exc_from_os e, s').

(** tcompact_protocol.go:715-717 *)
Definition writeByteDirect (b : Z) : wop cw := c_write_raw [b].

(** The loop of writeVarint32, tcompact_protocol.go:648-662.  The buffer has 5 bytes:
    a sixth index panics (the fuel is the buffer size). *)
Fixpoint varint32_bytes (room : nat) (n : Z) : outcome bytes :=
  match room with
  | O => Panic
  | S r =>
    if Z.land n (-128) =? 0 then Ok [wrapu 8 n]
    else
      rest <- varint32_bytes r (wraps 32 (Z.shiftr (wrapu 32 n) 7)) ;;
      Ok (wrapu 8 (Z.lor (Z.land n 127) 128) :: rest)
  end.
(** tcompact_protocol.go:645-664 *)
Definition writeVarint32 (n : Z) : wop cw :=
  fun s => bs <- varint32_bytes 5 n ;; c_write_raw bs s.

(** tcompact_protocol.go:669-685 *)
Fixpoint varint64_bytes (room : nat) (n : Z) : outcome bytes :=
  match room with
  | O => Panic
  | S r =>
    if Z.land n (-128) =? 0 then Ok [wrapu 8 n]
    else
      rest <- varint64_bytes r (wraps 64 (Z.shiftr (wrapu 64 n) 7)) ;;
      Ok (wrapu 8 (Z.lor (Z.land n 127) 128) :: rest)
  end.
Definition writeVarint64 (n : Z) : wop cw :=
  fun s => bs <- varint64_bytes 10 n ;; c_write_raw bs s.

(** tcompact_protocol.go:691-701 *)
Definition int64ToZigzag (l : Z) : Z := Z.lxor (wraps 64 (Z.shiftl l 1)) (Z.shiftr l 63).
Definition int32ToZigzag (n : Z) : Z := Z.lxor (wraps 32 (Z.shiftl n 1)) (Z.shiftr n 31).

(** tcompact_protocol.go:290-293, 298-301, 306-309, 282-285 *)
Definition cWriteI16 (value : Z) : wop cw := wrap_exc (writeVarint32 (int32ToZigzag value)).
Definition cWriteI32 (value : Z) : wop cw := wrap_exc (writeVarint32 (int32ToZigzag value)).
Definition cWriteI64 (value : Z) : wop cw := wrap_exc (writeVarint64 (int64ToZigzag value)).
Definition cWriteByte (value : Z) : wop cw := wrap_exc (writeByteDirect value).

(** encoding/binary LittleEndian.PutUint64 *)
Definition le_bytes64 (v : Z) : bytes :=
  [wrapu 8 v; wrapu 8 (Z.shiftr v 8); wrapu 8 (Z.shiftr v 16); wrapu 8 (Z.shiftr v 24);
   wrapu 8 (Z.shiftr v 32); wrapu 8 (Z.shiftr v 40); wrapu 8 (Z.shiftr v 48);
   wrapu 8 (Z.shiftr v 56)].

(** tcompact_protocol.go:314-319 *)
Definition cWriteDouble (value : Z) : wop cw := wrap_exc (c_write_raw (le_bytes64 value)).

(** tcompact_protocol.go:333-343 *)
Definition cWriteBinary (bin : bytes) : wop cw :=
  wrap_exc (writeVarint32 (wraps 32 (Z.of_nat (length bin)))) >>>
  (if (0 <? length bin)%nat then wrap_exc (c_write_raw bin) else nop).
(** tcompact_protocol.go:324-328 *)
Definition cWriteString (value : bytes) : wop cw := cWriteBinary value.

(** tcompact_protocol.go:127-143 *)
Definition cWriteMessageBegin (name : bytes) (typeId seqid : Z) : wop cw :=
  wrap_exc (writeByteDirect COMPACT_PROTOCOL_ID) >>>
  wrap_exc (writeByteDirect
     (Z.lor (Z.land COMPACT_VERSION COMPACT_VERSION_MASK)
        (Z.land (wrapu 8 (Z.shiftl (wrapu 8 typeId) COMPACT_TYPE_SHIFT_AMOUNT))
                COMPACT_TYPE_MASK))) >>>
  wrap_exc (writeVarint32 seqid) >>>
  cWriteString name.

(** tcompact_protocol.go:152-156 *)
Definition cWriteStructBegin (name : bytes) : wop cw :=
  fun '(w, c) => Ok (None, (w, set_last c (lastFieldId c :: lastField c) 0)).

(** tcompact_protocol.go:163-167; indexing an empty stack panics *)
Definition cWriteStructEnd : wop cw :=
  fun '(w, c) =>
    match lastField c with
    | [] => Panic
    | i :: l => Ok (None, (w, set_last c l i))
    end.

(** tcompact_protocol.go:184-219; [typeOverride = 255] means none *)
Definition writeFieldBeginInternal (typeId id typeOverride : Z) : wop cw :=
  fun '(w, c) =>
    typeToWrite <- (if typeOverride =? 255 then getCompactType typeId
                    else Ok typeOverride) ;;
    let fieldId := id in
    let last := lastFieldId c in
    ((if (last <? fieldId) && (fieldId - last <=? 15)
      then writeByteDirect (Z.lor (wrapu 8 (Z.shiftl (fieldId - last) 4)) typeToWrite)
      else writeByteDirect typeToWrite >>> cWriteI16 id) >>>
     (fun '(w', c') => Ok (None, (w', set_last c' (lastField c') fieldId)))) (w, c).

(** tcompact_protocol.go:169-177 *)
Definition cWriteFieldBegin (name : bytes) (typeId id : Z) : wop cw :=
  fun '(w, c) =>
    if typeId =? BOOL then Ok (None, (w, set_boolField c (Some (typeId, id))))
    else wrap_exc (writeFieldBeginInternal typeId id 255) (w, c).

(** tcompact_protocol.go:223-226 *)
Definition cWriteFieldStop : wop cw := wrap_exc (writeByteDirect STOP).

(** tcompact_protocol.go:228-239 *)
Definition cWriteMapBegin (keyType valueType size : Z) : wop cw :=
  if size =? 0 then wrap_exc (writeByteDirect 0)
  else
    wrap_exc (writeVarint32 (wraps 32 size)) >>>
    (fun s =>
       k <- getCompactType keyType ;;
       v <- getCompactType valueType ;;
       wrap_exc (writeByteDirect (Z.lor (wrapu 8 (Z.shiftl k 4)) v)) s).

(** tcompact_protocol.go:629-639 *)
Definition writeCollectionBegin (elemType size : Z) : wop cw :=
  fun s =>
    t <- getCompactType elemType ;;
    (if size <=? 14
     then writeByteDirect (wrapu 8 (Z.lor (wraps 32 (Z.shiftl size 4)) t))
     else writeByteDirect (Z.lor 240 t) >>> writeVarint32 (wraps 32 size)) s.
(** tcompact_protocol.go:246-249, 256-259 *)
Definition cWriteListBegin (elemType size : Z) : wop cw :=
  wrap_exc (writeCollectionBegin elemType size).
Definition cWriteSetBegin (elemType size : Z) : wop cw :=
  wrap_exc (writeCollectionBegin elemType size).

(** tcompact_protocol.go:263-277 *)
Definition cWriteBool (value : bool) : wop cw :=
  fun '(w, c) =>
    let v := if value then COMPACT_BOOLEAN_TRUE else COMPACT_BOOLEAN_FALSE in
    match booleanField c with
    | Some (t, id) =>
      '(e, (w', c')) <- writeFieldBeginInternal t id v (w, c) ;;
      Ok (protocol_exc_from_os e, (w', set_boolField c' None))
    | None => wrap_exc (writeByteDirect v) (w, c)
    end.

(** The writing half; the remaining methods return nil. *)
Definition compactW : wproto cw := {|
  wMessageBegin := cWriteMessageBegin;
  wMessageEnd := nop;
  wStructBegin := cWriteStructBegin;
  wStructEnd := cWriteStructEnd;
  wFieldBegin := cWriteFieldBegin;
  wFieldEnd := nop;
  wFieldStop := cWriteFieldStop;
  wMapBegin := cWriteMapBegin;
  wMapEnd := nop;
  wListBegin := cWriteListBegin;
  wListEnd := nop;
  wSetBegin := cWriteSetBegin;
  wSetEnd := nop;
  wBool := cWriteBool;
  wByte := cWriteByte;
  wI16 := cWriteI16;
  wI32 := cWriteI32;
  wI64 := cWriteI64;
  wDouble := cWriteDouble;
  wString := cWriteString;
  wBinary := cWriteBinary
|}.

(** ** Reading *)

Definition cr := (rt * cstate)%type.

(** tcompact_protocol.go:531-538 *)
Definition cReadByte : rop cr Z :=
  fun '(r, c) =>
    let '(_, buf, e, r') := read_all 1 r in
    match e with
    | Some _ => Ok (0, protocol_exc_from_os e, (r', c))
    | None => Ok (at_ 0 buf, None, (r', c))
    end.

(** The loop of readVarint64, tcompact_protocol.go:745-760.  The loop has no bound in Go; the
    fuel [readVarint64] passes is the number of unread bytes and events plus one, which
    suffices because each round reads one byte or stops
    (CompactRead.v, [readVarint64_fuel]).
    A (0, nil) Read yields byte 0 and ends the loop. *)
Fixpoint readVarint64_loop (fuel : nat) (shift result : Z) : rop cr Z :=
  fun s =>
    match fuel with
    | O => OutOfFuel
    | S f =>
      '(b, e, s') <- cReadByte s ;;
      match e with
      | Some _ => Ok (0, e, s')
      | None =>
        let result' := Z.lor result
          (if shift <? 64 then wraps 64 (Z.shiftl (Z.land b 127) shift) else 0) in
        if negb (Z.land b 128 =? 128) then Ok (result', None, s')
        else readVarint64_loop f (shift + 7) result' s'
      end
    end.
Definition rt_size (r : rt) : nat := length (concat (map fst r)).
Definition readVarint64 : rop cr Z :=
  fun s => readVarint64_loop (S (rt_size (fst s))) 0 0 s.
(** tcompact_protocol.go:734-739 *)
Definition readVarint32 : rop cr Z :=
  fun s => '(v, e, s') <- readVarint64 s ;; Ok (wraps 32 v, e, s').

(** tcompact_protocol.go:769-780 *)
Definition zigzagToInt32 (n : Z) : Z :=
  Z.lxor (wraps 32 (Z.shiftr (wrapu 32 n) 1)) (wraps 32 (- Z.land n 1)).
Definition zigzagToInt64 (n : Z) : Z :=
  Z.lxor (wraps 64 (Z.shiftr (wrapu 64 n) 1)) (wraps 64 (- Z.land n 1)).

(** tcompact_protocol.go:551-558 *)
Definition cReadI32 : rop cr Z :=
  fun s =>
    '(v, e, s') <- readVarint32 s ;;
    match e with
    | Some _ => Ok (0, protocol_exc_from_os e, s')
    | None => Ok (zigzagToInt32 v, None, s')
    end.
(** tcompact_protocol.go:543-546 *)
Definition cReadI16 : rop cr Z :=
  fun s => '(v, e, s') <- cReadI32 s ;; Ok (wraps 16 v, e, s').
(** tcompact_protocol.go:563-570 *)
Definition cReadI64 : rop cr Z :=
  fun s =>
    '(v, e, s') <- readVarint64 s ;;
    match e with
    | Some _ => Ok (0, protocol_exc_from_os e, s')
    | None => Ok (zigzagToInt64 v, None, s')
    end.

(** encoding/binary LittleEndian.Uint64 *)
Definition le_uint64 (b : bytes) : Z :=
  Z.lor (at_ 0 b) (Z.lor (Z.shiftl (at_ 1 b) 8)
    (Z.lor (Z.shiftl (at_ 2 b) 16) (Z.lor (Z.shiftl (at_ 3 b) 24)
      (Z.lor (Z.shiftl (at_ 4 b) 32) (Z.lor (Z.shiftl (at_ 5 b) 40)
        (Z.lor (Z.shiftl (at_ 6 b) 48) (Z.shiftl (at_ 7 b) 56))))))).

(** tcompact_protocol.go:575-582 *)
Definition cReadDouble : rop cr Z :=
  fun '(r, c) =>
    let '(_, buf, e, r') := read_all 8 r in
    match e with
    | Some _ => Ok (0, protocol_exc_from_os e, (r', c))
    | None => Ok (le_uint64 buf, None, (r', c))
    end.

(** tcompact_protocol.go:595-607; the results of ReadAll are dropped; [make] with a
    negative length panics *)
Definition cReadBinary : rop cr bytes :=
  fun s =>
    '(length, e, (r, c)) <- readVarint32 s ;;
    match e with
    | Some _ => Ok ([], protocol_exc_from_os e, (r, c))
    | None =>
      if length =? 0 then Ok ([], None, (r, c))
      else if length <? 0 then Panic
      else let '(_, buf, _, r') := read_all (Z.to_nat length) r in
           Ok (buf, None, (r', c))
    end.
(** tcompact_protocol.go:587-590 *)
Definition cReadString : rop cr bytes :=
  fun s => '(v, e, s') <- cReadBinary s ;; Ok (v, protocol_exc_from_os e, s').

(** tcompact_protocol.go:519-526 *)
Definition cReadBool : rop cr bool :=
  fun '(r, c) =>
    if boolValueIsNotNull c
    then Ok (boolValue c, None, (r, set_boolValue c (boolValue c) false))
    else '(v, e, s') <- cReadByte (r, c) ;; Ok (v =? COMPACT_BOOLEAN_TRUE, e, s').

(** tcompact_protocol.go:352-376.  The error of the first ReadByte is overwritten. *)
Definition cReadMessageBegin : rop cr (bytes * Z * Z) :=
  fun s =>
    '(protocolId, _, s1) <- cReadByte s ;;
    if negb (protocolId =? COMPACT_PROTOCOL_ID)
    then Ok (([], 0, 0), Some (EProtocol BAD_VERSION), s1)
    else
      '(versionAndType, e, s2) <- cReadByte s1 ;;
      let version := Z.land versionAndType COMPACT_VERSION_MASK in
      let typeId := Z.land (Z.shiftr versionAndType COMPACT_TYPE_SHIFT_AMOUNT) 3 in
      match e with
      | Some _ => Ok (([], typeId, 0), e, s2)
      | None =>
        if negb (version =? COMPACT_VERSION)
        then Ok (([], typeId, 0), Some (EProtocol BAD_VERSION), s2)
        else
          '(seqId, e1, s3) <- readVarint32 s2 ;;
          match e1 with
          | Some _ => Ok (([], typeId, seqId), protocol_exc_from_os e1, s3)
          | None =>
            '(name, e2, s4) <- cReadString s3 ;;
            Ok ((name, typeId, seqId), e2, s4)
          end
      end.

(** tcompact_protocol.go:384-388 *)
Definition cReadStructBegin : rop cr bytes :=
  fun '(r, c) => Ok ([], None, (r, set_last c (lastFieldId c :: lastField c) 0)).

(** tcompact_protocol.go:394-398: the stack is not popped *)
Definition cReadStructEnd : wop cr :=
  fun '(r, c) =>
    match lastField c with
    | [] => Panic
    | i :: _ => Ok (None, (r, set_last c (lastField c) i))
    end.

(** tcompact_protocol.go:804-806 *)
Definition isBoolType (b : Z) : bool :=
  (Z.land b 15 =? COMPACT_BOOLEAN_TRUE) || (Z.land b 15 =? COMPACT_BOOLEAN_FALSE).

(** tcompact_protocol.go:403-442 *)
Definition cReadFieldBegin : rop cr (bytes * Z * Z) :=
  fun s =>
    '(t, e, s1) <- cReadByte s ;;
    match e with
    | Some _ => Ok (([], 0, 0), e, s1)
    | None =>
      if Z.land t 15 =? STOP then Ok (([], STOP, 0), None, s1)
      else
        let modifier := wraps 16 (Z.shiftr (Z.land t 240) 4) in
        '(id, e1, s2) <-
           (if modifier =? 0 then cReadI16 s1
            else Ok (wraps 16 (wraps 16 (lastFieldId (snd s1)) + modifier), None, s1)) ;;
        match e1 with
        | Some _ => Ok (([], 0, id), e1, s2)
        | None =>
          let '(typeId, e2) := getTType (Z.land t 15) in
          match e2 with
          | Some _ => Ok (([], typeId, id), protocol_exc_from_os e2, s2)
          | None =>
            let '(r, c) := s2 in
            let c1 := if isBoolType t
                      then set_boolValue c (Z.land t 15 =? COMPACT_BOOLEAN_TRUE) true
                      else c in
            Ok (([], typeId, id), None, (r, set_last c1 (lastField c1) id))
          end
        end
    end.

(** tcompact_protocol.go:451-468; errors of getTType are dropped *)
Definition cReadMapBegin : rop cr (Z * Z * Z) :=
  fun s =>
    '(size, e, s1) <- readVarint32 s ;;
    match e with
    | Some _ => Ok ((0, 0, size), protocol_exc_from_os e, s1)
    | None =>
      '(kv, e1, s2) <- (if negb (size =? 0) then cReadByte s1 else Ok (STOP, None, s1)) ;;
      match e1 with
      | Some _ => Ok ((0, 0, size), e1, s2)
      | None =>
        Ok ((fst (getTType (Z.shiftr kv 4)), fst (getTType (Z.land kv 15)), size),
            None, s2)
      end
    end.

(** tcompact_protocol.go:478-498 *)
Definition cReadListBegin : rop cr (Z * Z) :=
  fun s =>
    '(st, e, s1) <- cReadByte s ;;
    match e with
    | Some _ => Ok ((0, 0), e, s1)
    | None =>
      let size := Z.land (Z.shiftr st 4) 15 in
      '(size2, e1, s2) <- (if size =? 15 then readVarint32 s1 else Ok (size, None, s1)) ;;
      match e1 with
      | Some _ => Ok ((0, size), protocol_exc_from_os e1, s2)
      | None =>
        let '(elemType, e2) := getTType st in
        Ok ((elemType, size2), protocol_exc_from_os e2, s2)
      end
    end.

(** The reading half; ReadSetBegin is ReadListBegin (508-510); the remaining methods return
    nil. *)
Definition compactR : rproto cr := {|
  rMessageBegin := cReadMessageBegin;
  rMessageEnd := nop;
  rStructBegin := cReadStructBegin;
  rStructEnd := cReadStructEnd;
  rFieldBegin := cReadFieldBegin;
  rFieldEnd := nop;
  rMapBegin := cReadMapBegin;
  rMapEnd := nop;
  rListBegin := cReadListBegin;
  rListEnd := nop;
  rSetBegin := cReadListBegin;
  rSetEnd := nop;
  rBool := cReadBool;
  rByte := cReadByte;
  rI16 := cReadI16;
  rI32 := cReadI32;
  rI64 := cReadI64;
  rDouble := cReadDouble;
  rString := cReadString;
  rBinary := cReadBinary
|}.
