(** processRequest of TSimpleServer and TNonblockingServer with the processors of Rpc.v and the
    transports and protocols their factories give.

    lib/go/src/thrift/tsimple_server.go, tnonblocking_server.go (the same but for the name),
    ttransport_factory.go,
    tprocessor_factory.go, and the factories in tframed_transport.go, tbinary_protocol.go and
    tcompact_protocol.go.  Server.v has the accept loop, Stop and the closing of the transports.

    Simplifications.  The client transport is one that does not buffer: what is written to it is
    sent, Flush does nothing to it; the bytes it delivers and the bytes written to it are
    separate.  The transport factories are those of ttransport_factory.go and, around it,
    tframed_transport.go; the protocol factories those of the binary and the compact protocol. *)
From Coq Require Import ZArith List Bool.
From Verif Require Import Base Errors Transport Proto Binary Compact Buffer Framed FramedProofs Over OverSim OverInst OverRpc.
From Verif Require Import TField GoVal Compare TMap Gen AppExc Rpc.
Import ListNotations.
Open Scope Z_scope.

(** ** Factories *)

(** NewTTransportFactory, ttransport_factory.go:33-48; NewTFramedTransportFactory of it,
    tframed_transport.go:33-43. *)
Inductive tfactory : Type := TFPlain | TFFramed.
(** NewTBinaryProtocolFactory(strictRead, strictWrite), tbinary_protocol.go:38-62;
    NewTCompactProtocolFactory, tcompact_protocol.go:76-84. *)
Inductive pfactory : Type := PFBinary (strictRead strictWrite : bool) | PFCompact.
(** tbinary_protocol.go:52-54 *)
Definition NewTBinaryProtocolFactoryDefault : pfactory := PFBinary false true.

(** TSimpleServer, tsimple_server.go:26-35, the fields used to serve a connection.  The
    processor factory of tprocessor_factory.go:30-40 returns the processor it was made with,
    whatever the transport; it is left to the functions below. *)
Record tserver : Type := MkTServer {
  sv_in_t : tfactory; sv_out_t : tfactory;
  sv_in_p : pfactory; sv_out_p : pfactory
}.
(** tsimple_server.go:79-87 *)
Definition NewTSimpleServerFactory6 (it ot : tfactory) (ip op : pfactory) : tserver :=
  MkTServer it ot ip op.
(** 69-77 *)
Definition NewTSimpleServerFactory4 (t : tfactory) (p : pfactory) : tserver :=
  NewTSimpleServerFactory6 t t p p.
(** 59-67 *)
Definition NewTSimpleServerFactory2 : tserver :=
  NewTSimpleServerFactory6 TFPlain TFPlain NewTBinaryProtocolFactoryDefault NewTBinaryProtocolFactoryDefault.
(** 37-57 *)
Definition NewTSimpleServer6 := NewTSimpleServerFactory6.
Definition NewTSimpleServer4 := NewTSimpleServerFactory4.
Definition NewTSimpleServer2 := NewTSimpleServerFactory2.

(** An input protocol on a transport that delivers [r]. *)
Record reader : Type := MkReader { rd_st : Type; rd_proto : rproto rd_st; rd_new : rt -> rd_st }.
(** An output protocol on a transport, the Flush of that transport, and what was sent. *)
Record writer : Type := MkWriter {
  wr_st : Type; wr_proto : wproto wr_st; wr_flush : wop wr_st;
  wr_new : wt -> wr_st; wr_sent : wr_st -> wt
}.

Definition new_framed_in (r : rt) : framed := NewTFramedTransport (MkWt [] []) r.
Definition new_framed_out (w : wt) : framed := NewTFramedTransport w [].
Definition compact_fflush : wop (framed * cstate) := fun t => '(e, f) <- fflush (fst t) ;; Ok (e, (f, snd t)).

(** GetTransport, then GetProtocol, for the input (tsimple_server.go:139, 141) *)
Definition GetReader (intw : Z) (tf : tfactory) (pf : pfactory) : reader :=
  match tf, pf with
  | TFPlain, PFBinary strictRead _ => MkReader rt (binaryR strictRead) (fun r => r)
  | TFPlain, PFCompact => MkReader cr compactR (fun r => (r, cinit))
  | TFFramed, PFBinary strictRead _ =>
      MkReader framed (o_binaryR (read_all_over (framed_read intw)) strictRead) new_framed_in
  | TFFramed, PFCompact =>
      MkReader (framed * cstate) (o_compactR (read_all_over (framed_read intw)) framed_unread)
        (fun r => (new_framed_in r, cinit))
  end.
(** ... and for the output (140, 142) *)
Definition GetWriter (tf : tfactory) (pf : pfactory) : writer :=
  match tf, pf with
  | TFPlain, PFBinary _ strictWrite => MkWriter wt (binaryW strictWrite) nop (fun w => w) (fun w => w)
  | TFPlain, PFCompact => MkWriter cw compactW nop (fun w => (w, cinit)) fst
  | TFFramed, PFBinary _ strictWrite =>
      MkWriter framed (o_binaryW framed_wr (copy_over framed_wr) strictWrite) fflush new_framed_out f_w
  | TFFramed, PFCompact =>
      MkWriter (framed * cstate) (o_compactW framed_wr) compact_fflush (fun w => (new_framed_out w, cinit))
        (fun s => f_w (fst s))
  end.

(** ** One connection *)

(** Whether the loop of processRequest is left after Process returned [p],
    tsimple_server.go:151-159 and tnonblocking_server.go:165-173. *)
Definition ends {SR SW H} (stopped : bool) (p : @pout SR SW H) : bool :=
  match p_err p with
  | Some _ => if negb stopped then true else negb (p_success p)
  | None => negb (p_success p)
  end.

Section Serve.
Context {H : Type}.
Variable x : ext.
Variable MaxSkipDepth : Z.
Variable cfuel fuel : nat.
Variable errtext : err -> bytes.
Variable handle : H -> bytes -> list any -> (list (Z * any) * option bytes) * H.
Variable fs : list func.
(** The flag stopped as the n-th return of Process finds it: Stop may be called at any time. *)
Variable stopped : nat -> bool.

(** The loop of processRequest, tsimple_server.go:149-160 and tnonblocking_server.go:163-174. *)
Fixpoint serve_loop {SR SW} (R : rproto SR) (W : wproto SW) (flush : wop SW)
    (rounds n : nat) (h : H) (si : SR) (so : SW) : outcome (H * SR * SW) :=
  match rounds with
  | O => OutOfFuel
  | S rounds =>
    p <- process R W flush x MaxSkipDepth cfuel fuel errtext handle fs h si so ;;
    if ends (stopped n) p then Ok (p_h p, p_in p, p_out p)
    else serve_loop R W flush rounds (S n) (p_h p) (p_in p) (p_out p)
  end.

(** processRequest, tsimple_server.go:137-161: the handler's state and the bytes sent when the
    client sends [r]. *)
Definition processRequest (intw : Z) (sv : tserver) (rounds : nat) (h : H) (r : rt) : outcome (H * bytes) :=
  let R := GetReader intw (sv_in_t sv) (sv_in_p sv) in
  let W := GetWriter (sv_out_t sv) (sv_out_p sv) in
  '(h', _, so) <- serve_loop (rd_proto R) (wr_proto W) (wr_flush W) rounds 0 h
                    (rd_new R r) (wr_new W (MkWt [] [])) ;;
  Ok (h', w_out (wr_sent W so)).

(** Serve of a TSimpleServer, tsimple_server.go:113-129, for clients accepted one after the
    other: processRequest is called, not started. *)
Fixpoint serve_each (intw : Z) (sv : tserver) (rounds : nat) (h : H) (rs : list rt) : outcome (H * list bytes) :=
  match rs with
  | [] => Ok (h, [])
  | r :: rs =>
    '(h1, b) <- processRequest intw sv rounds h r ;;
    '(h2, bs) <- serve_each intw sv rounds h1 rs ;;
    Ok (h2, b :: bs)
  end.

(** *** Many connections *)

(** A goroutine running processRequest. *)
Record conn (SR SW : Type) : Type := MkConn { cn_in : SR; cn_out : SW; cn_open : bool }.
Arguments MkConn {SR SW}. Arguments cn_in {SR SW}. Arguments cn_out {SR SW}. Arguments cn_open {SR SW}.

(** Serve of a TNonblockingServer, tnonblocking_server.go:123-139: each client has its own
    goroutine.  A step is a call of Process by one of them, with the value of the flag stopped
    when it returns.  Simplification: calls of Process do not overlap.  They share only the
    handler, which each calls at most once; a handler whose calls are serialised (Go does not do
    it) sees them in the order in which they are taken here.  A client accepted later is one
    that takes its first turn later. *)
Definition conn_turn {SR SW} (R : rproto SR) (W : wproto SW) (flush : wop SW) (st : bool) (h : H) (c : conn SR SW)
  : outcome (H * conn SR SW) :=
  if cn_open c then
    p <- process R W flush x MaxSkipDepth cfuel fuel errtext handle fs h (cn_in c) (cn_out c) ;;
    Ok (p_h p, MkConn (p_in p) (p_out p) (negb (ends st p)))
  else Ok (h, c).
Fixpoint conns_turn {SR SW} (R : rproto SR) (W : wproto SW) (flush : wop SW) (k : nat) (st : bool) (h : H)
    (cs : list (conn SR SW)) : outcome (H * list (conn SR SW)) :=
  match cs, k with
  | [], _ => Ok (h, [])
  | c :: cs, O => '(h', c') <- conn_turn R W flush st h c ;; Ok (h', c' :: cs)
  | c :: cs, S k => '(h', cs') <- conns_turn R W flush k st h cs ;; Ok (h', c :: cs')
  end.
Fixpoint turns {SR SW} (R : rproto SR) (W : wproto SW) (flush : wop SW) (sched : list (nat * bool)) (h : H)
    (cs : list (conn SR SW)) : outcome (H * list (conn SR SW)) :=
  match sched with
  | [] => Ok (h, cs)
  | (k, st) :: sched => '(h', cs') <- conns_turn R W flush k st h cs ;; turns R W flush sched h' cs'
  end.
(** For each client whether it is still being served, and the bytes sent to it. *)
Definition serve_many (intw : Z) (sv : tserver) (sched : list (nat * bool)) (h : H) (rs : list rt)
  : outcome (H * list (bool * bytes)) :=
  let R := GetReader intw (sv_in_t sv) (sv_in_p sv) in
  let W := GetWriter (sv_out_t sv) (sv_out_p sv) in
  '(h', cs) <- turns (rd_proto R) (wr_proto W) (wr_flush W) sched h
                 (map (fun r => MkConn (rd_new R r) (wr_new W (MkWt [] [])) true) rs) ;;
  Ok (h', map (fun c => (cn_open c, w_out (wr_sent W (cn_out c)))) cs).
End Serve.
Arguments MkConn {SR SW}. Arguments cn_in {SR SW}. Arguments cn_out {SR SW}. Arguments cn_open {SR SW}.
