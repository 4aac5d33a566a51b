(** TMemoryBuffer (tmemory_buffer.go): bytes.Buffer behind the transport interface. *)
From Coq Require Import ZArith List Bool Lia.
From Verif Require Import Base Transport Buffer Framed.
Import ListNotations.
Open Scope Z_scope.

(** tmemory_buffer.go:31-34; the field [size] only serves the factory *)
Definition membuf := buffer.
(** tmemory_buffer.go:54-56; [NewTMemoryBufferLen] (58-61) differs in capacity only *)
Definition NewTMemoryBuffer : membuf := bNew [].

(** One method call on the buffer; the argument buffer of a Read call is given by its length,
    the peer of ReadFrom/WriteTo by its coming results. *)
Inductive mop : Type :=
| MOpen | MIsOpen | MPeek | MFlush | MLen | MBytes
| MRead (n : nat)
| MReadAll (n : nat)
| MReadByte
| MReadFrom (r : rt)
| MWrite (p : bytes)
| MWriteString (p : bytes)
| MWriteTo (w : wt)
| MReset | MClose.
(** What the call hands to the caller (or, for WriteTo, to the given writer): data taken out, the
    count or boolean returned, the error. *)
Record mres : Type := MkRes { m_data : bytes; m_num : Z; m_err : option err }.

(** tmemory_buffer.go:63-126 *)
Definition mem_op (o : mop) (b : membuf) : mres * membuf :=
  match o with
  | MOpen | MFlush => (MkRes [] 0 None, b)
  | MIsOpen | MPeek => (MkRes [] 1 None, b)
  | MLen => (MkRes [] (Z.of_nat (bLen b)) None, b)
  | MBytes => (MkRes (bBytes b) (Z.of_nat (length (bBytes b))) None, b)
  | MRead n => let '(d, e, b') := bRead n b in (MkRes d (Z.of_nat (length d)) e, b')
  | MReadAll n => let '(c, d, e, b') := read_all_via bRead n n 0 None b in (MkRes d c e, b')
  | MReadByte => let '(c, e, b') := bReadByte b in
                 (MkRes (match e with None => [c] | _ => [] end) c e, b')
  | MReadFrom r => let '(n, e, b', _) := bReadFrom r b in (MkRes [] n e, b')
  | MWrite p | MWriteString p => let '(n, e, b') := bWrite p b in (MkRes [] n e, b')
  | MWriteTo w => let '(n, e, b', w') := bWriteTo b w in
                  (MkRes (skipn (length (w_out w)) (w_out w')) n e, b')
  | MReset | MClose => (MkRes [] 0 None, bReset b)
  end.
Fixpoint mem_ops (os : list mop) (b : membuf) : list mres * membuf :=
  match os with
  | [] => ([], b)
  | o :: os' => let '(x, b1) := mem_op o b in let '(l, b2) := mem_ops os' b1 in (x :: l, b2)
  end.
