(** Byte transports: what a protocol sees of a TTransport (ttransport.go:37-101),
    and ReadAllTransport. *)
From Coq Require Import ZArith List Bool Lia.
From Verif Require Import Base.
Import ListNotations.
Open Scope Z_scope.

(** The reading side of a transport is the list of the results its coming Read
    calls give: each entry is a chunk of data with the error (if any) returned
    together with the last byte of that chunk.  An entry with no data and no
    error is a Read returning (0, nil); after the last entry Read returns
    (0, io.EOF) for ever.
    Simplification: errors other than the listed ones never occur after the list. *)
Definition event := (bytes * option err)%type.
Definition rt := list event.

(** One call [Read(buf)] with [len(buf) = n > 0] (ttransport.go:66). *)
Definition tread (n : nat) (r : rt) : bytes * option err * rt :=
  match r with
  | [] => ([], Some EEof, [])
  | (bs, e) :: r' =>
    if (n <? length bs)%nat then (firstn n bs, None, (skipn n bs, e) :: r')
    else (bs, e, r')
  end.

(** ReadAllTransport, ttransport.go:160-174.  [n] is what is still missing of the
    buffer, [e] the error of the last Read.  Returned: the [n] result, the bytes
    stored, the [err] result and the transport afterwards.
    The Go loop calls [tread] repeatedly; here the recursion runs along the event
    list ([read_all_unfold] in TransportProofs.v shows the loop equation). *)
Fixpoint read_all_loop (n : nat) (got : nat) (e : option err) (r : rt)
  : Z * bytes * option err * rt :=
  match n with
  | O => (Z.of_nat got, [], e, r)
  | S _ =>
    match r with
    | [] => (0, [], Some (ETransport UNKNOWN_TRANSPORT_EXCEPTION), [])
    | (bs, e') :: r' =>
      match bs with
      | [] => (0, [], match e' with
                      | Some _ => Some (ETransport UNKNOWN_TRANSPORT_EXCEPTION)
                      | None => None
                      end, r')
      | _ :: _ =>
        if (n <? length bs)%nat
        then (Z.of_nat (got + n), firstn n bs, None, (skipn n bs, e') :: r')
        else let '(c, d, e'', r'') :=
                 read_all_loop (n - length bs) (got + length bs) e' r' in
             (c, bs ++ d, e'', r'')
      end
    end
  end.

(** [ReadAll(buf)] with [len(buf) = n]: the n result, the buffer afterwards
    (bytes not read stay 0), the error and the transport. *)
Definition read_all (n : nat) (r : rt) : Z * bytes * option err * rt :=
  let '(c, d, e, r') := read_all_loop n 0 None r in (c, pad n d, e, r').

(** The writing side: the bytes accepted so far and the results of the coming
    Write calls; an exhausted schedule means every further Write succeeds.
    [WFail k e]: the call accepts the first k bytes (k below the length) and
    returns the error e (io.Writer contract: a short write carries an error). *)
Inductive wres : Type :=
| WOk
| WFail (k : nat) (e : err).

Record wt : Type := MkWt { w_out : bytes; w_sched : list wres }.

(** One call [Write(buf)] (ttransport.go:86). *)
Definition twrite (bs : bytes) (w : wt) : Z * option err * wt :=
  match w_sched w with
  | WFail k e :: s =>
    (Z.of_nat (length (firstn k bs)), Some e, MkWt (w_out w ++ firstn k bs) s)
  | WOk :: s => (Z.of_nat (length bs), None, MkWt (w_out w ++ bs) s)
  | [] => (Z.of_nat (length bs), None, MkWt (w_out w ++ bs) [])
  end.

(** io.CopyN(dst, strings.NewReader(s), len(s)) as used by tbinary_protocol.go:236:
    io.Copy reads blocks of at most 32 KiB and writes each of them; it stops at the
    first failing write; nothing is written for an empty string.
    Simplification: a destination with its own ReadFrom (TMemoryBuffer) receives
    the same bytes in one piece. *)
Definition copy_block : nat := Z.to_nat 32768.

Fixpoint copy_blocks (fuel : nat) (bs : bytes) (w : wt) : option err * wt :=
  match fuel with
  | O => (None, w)
  | S f =>
    match bs with
    | [] => (None, w)
    | _ :: _ =>
      let '(_, e, w') := twrite (firstn copy_block bs) w in
      match e with
      | Some e => (Some e, w')
      | None => copy_blocks f (skipn copy_block bs) w'
      end
    end
  end.

Definition copy_n (bs : bytes) (w : wt) : option err * wt :=
  copy_blocks (length bs) bs w.
