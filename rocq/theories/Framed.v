(** TFramedTransport (tframed_transport.go) over an arbitrary transport. *)
From Coq Require Import ZArith List Bool Lia.
From Verif Require Import Base Errors Transport Binary Buffer.
Import ListNotations.
Open Scope Z_scope.

(** encoding/binary BigEndian.PutUint32 *)
Definition put_uint32 (v : Z) : bytes :=
  [wrapu 8 (Z.shiftr v 24); wrapu 8 (Z.shiftr v 16); wrapu 8 (Z.shiftr v 8); wrapu 8 v].

(** tframed_transport.go:27-31: the two buffers and both directions of the wrapped
    transport. *)
Record framed : Type := MkFramed {
  f_w : wt; f_r : rt; f_wbuf : buffer; f_rbuf : buffer
}.
(** tframed_transport.go:45-49 *)
Definition NewTFramedTransport (w : wt) (r : rt) : framed := MkFramed w r (bNew []) (bNew []).

Section IntWidth.
(** The width of Go's int: 32 or 64. *)
Variable intw : Z.

(** tframed_transport.go:110-131.  The returned count and error are dropped by the only
    caller.  Running out of memory in [make] is not modelled. *)
Definition readFrame (f : framed) : framed :=
  let '(_, buf, e, r1) := read_all 4 (f_r f) in
  let f1 := MkFramed (f_w f) r1 (f_wbuf f) (f_rbuf f) in
  match e with
  | Some _ => f1
  | None =>
    let size := wraps intw (be_uint32 buf) in
    if size <? 0 then f1
    else if size =? 0 then f1
    else
      let '(_, buf2, e2, r2) := read_all (Z.to_nat size) r1 in
      match e2 with
      | Some _ => MkFramed (f_w f) r2 (f_wbuf f) (f_rbuf f)
      | None => MkFramed (f_w f) r2 (f_wbuf f) (bNew buf2)
      end
  end.

(** tframed_transport.go:67-80, with len(buf) = n *)
Definition framed_read (n : nat) (f : framed) : bytes * option err * framed :=
  let again f :=
    let f1 := readFrame f in
    let '(got, e, rb) := bRead n (f_rbuf f1) in
    (got, transport_exc_from_os e, MkFramed (f_w f1) (f_r f1) (f_wbuf f1) rb) in
  if (0 <? bLen (f_rbuf f))%nat then
    let '(got, e, rb) := bRead n (f_rbuf f) in
    let f1 := MkFramed (f_w f) (f_r f) (f_wbuf f) rb in
    if (0 <? length got)%nat then (got, transport_exc_from_os e, f1) else again f1
  else again f.
End IntWidth.

(** tframed_transport.go:86-89 *)
Definition framed_write (p : bytes) (f : framed) : Z * option err * framed :=
  let '(n, e, wb) := bWrite p (f_wbuf f) in
  (n, transport_exc_from_os e, MkFramed (f_w f) (f_r f) wb (f_rbuf f)).

(** tframed_transport.go:91-108; [fe] is what Flush of the wrapped transport returns *)
Definition framed_flush (fe : option err) (f : framed) : option err * framed :=
  let size := bLen (f_wbuf f) in
  let '(_, e, w1) := twrite (put_uint32 (wrapu 32 (Z.of_nat size))) (f_w f) in
  let f1 := MkFramed w1 (f_r f) (f_wbuf f) (f_rbuf f) in
  match e with
  | Some _ => (transport_exc_from_os e, f1)
  | None =>
    if (0 <? size)%nat then
      let '(_, e2, wb, w2) := bWriteTo (f_wbuf f1) w1 in
      let f2 := MkFramed w2 (f_r f) wb (f_rbuf f) in
      match e2 with
      | Some _ => (transport_exc_from_os e2, f2)
      | None => (transport_exc_from_os fe, f2)
      end
    else (transport_exc_from_os fe, f1)
  end.

(** ReadAllTransport (ttransport.go:160-174) over a Read function; [n] is what is missing.
    Every round stores at least one byte, so [n] rounds suffice. *)
Fixpoint read_all_via {S} (rd : nat -> S -> bytes * option err * S) (fuel n got : nat)
  (e : option err) (s : S) : Z * bytes * option err * S :=
  match fuel, n with
  | S f, S _ =>
    let '(d, e1, s1) := rd n s in
    match d with
    | [] => (0, [], match e1 with
                    | Some _ => Some (ETransport UNKNOWN_TRANSPORT_EXCEPTION)
                    | None => None
                    end, s1)
    | _ :: _ =>
      let '(c, d', e2, s2) := read_all_via rd f (n - length d) (got + length d) e1 s1 in
      (c, d ++ d', e2, s2)
    end
  | _, _ => (Z.of_nat got, [], e, s)
  end.
(** tframed_transport.go:82-84 *)
Definition framed_read_all (intw : Z) (n : nat) (f : framed) : Z * bytes * option err * framed :=
  read_all_via (framed_read intw) n n 0 None f.
