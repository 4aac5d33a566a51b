(** The transport factories.

    lib/go/src/thrift/ttransport_factory.go, and the factories in tframed_transport.go,
    tiostream_transport.go, tmemory_buffer.go, thttp_client.go, tnonblocking_socket.go,
    tserver_socket.go and tnonblocking_server_socket.go.

    What matters is which objects the transport that GetTransport returns reads from and writes
    to, so transports are the values of their fields, and the objects the fields point to are
    addresses.  The fields that hold what was read ahead or is waiting to be flushed are part of
    those objects.  What the transports do is in Framed.v, IOStream.v, MemBuffer.v, Http.v,
    Socket.v and ServerSocket.v. *)
From Coq Require Import ZArith List Bool.
From Verif Require Import Base.
Import ListNotations.
Open Scope Z_scope.

(** An io.Reader or io.Writer: an object of the caller, with both the methods of io.ReadWriter or
    not, or a bufio object and the object under it. *)
Inductive stream : Type := SRaw (a : nat) (rw : bool) | SBufio (id a : nat).
(** bufio.NewReader and bufio.NewWriter give back what they get if it is a bufio object already
    (of at least their own buffer size; one with a smaller buffer counts as the caller's
    object). *)
Definition bufio (id : nat) (s : stream) : stream :=
  match s with SRaw a _ => SBufio id a | SBufio _ _ => s end.

(** The transports.  [id]s are the addresses of bytes.Buffers, [addr] a net.Addr, [conn] a
    net.Conn, [listener] a net.Listener; None is nil. *)
Inductive trans : Type :=
| TNil                                                               (* a nil TTransport *)
| TMem (id : nat) (size : Z)                                         (* tmemory_buffer.go:31-34 *)
| TIos (rd wr : option stream) (isrw : bool)                         (* tiostream_transport.go:34-38 *)
| TFramed (id : nat) (t : trans)                                     (* tframed_transport.go:27-31 *)
| THttp (url : option bytes) (resp : option nat) (req : option nat)  (* thttp_client.go:29-35 *)
| TSock (addr : option nat) (timeout : Z) (conn : option nat)        (* tsocket.go *)
| TNbSock (addr : option nat) (timeout : Z) (conn : option nat)      (* tnonblocking_socket.go *)
| TSrvSock (addr : option nat) (timeout : Z) (listener : option nat) (* tserver_socket.go:25-45 *)
| TNbSrvSock (addr : option nat) (timeout : Z) (listener : option nat)
| TUser (id : nat).                                                  (* a type of the caller *)

(** The factories. *)
Inductive factory : Type :=
| FPlain                                                (* ttransport_factory.go:33, 45-47 *)
| FFramed (f : factory)                                 (* tframed_transport.go:33-39 *)
| FIos (rd wr : option stream) (isrw : bool)            (* tiostream_transport.go:40-44, 80-82 *)
| FMem (size : Z)                                       (* tmemory_buffer.go:36-38, 50-52 *)
| FHttp (url : bytes) (post : bool)                     (* thttp_client.go:37-40, 62-68 *)
| FNbSock (addr : option nat)                           (* tnonblocking_socket.go:39-41, 55-57 *)
| FSrvSock (addr : option nat) (timeout : Z)            (* tserver_socket.go:47-50, 64-66 *)
| FNbSrvSock (addr : option nat).                       (* tnonblocking_server_socket.go:38-40, 54-56 *)

(** url.Parse: the URL, given by what its String says, or an error; http.Get: the response or an
    error. *)
Record web : Type := MkWeb { w_parse : bytes -> option bytes; w_get : bytes -> option nat }.

Section Get.
Variable w : web.

(** In what follows [fresh] is the address of the first object not yet allocated.
    tmemory_buffer.go:58-61: make panics if the capacity is negative. *)
Definition NewTMemoryBufferLen (fresh : nat) (size : Z) : outcome trans :=
  if size <? 0 then Panic else Ok (TMem fresh size).

(** tiostream_transport.go:47-63 and 65-77: the same choice, for the fields of a transport and of
    the factory. *)
Definition ios_again (fresh : nat) (rd wr : option stream) (isrw : bool) : outcome trans :=
  if isrw then
    (* the type assertion p.Reader.(io.ReadWriter); 124-130 *)
    match rd with
    | Some (SRaw a true) => Ok (TIos (Some (SRaw a true)) (Some (SRaw a true)) true)
    | _ => Panic
    end
  else
    (* 88-90, 97-99, 106-108, 116-118 *)
    Ok (TIos (option_map (bufio fresh) rd) (option_map (bufio (S fresh)) wr) false).

(** thttp_client.go:70-80 and 82-89, with the error dropped: a nil TTransport *)
Definition NewTHttpClient (u : bytes) : trans :=
  match w_parse w u, w_get w u with
  | Some url, Some r => THttp (Some url) (Some r) None
  | _, _ => TNil
  end.
Definition NewTHttpPostClient (fresh : nat) (u : bytes) : trans :=
  match w_parse w u with Some url => THttp (Some url) None (Some fresh) | None => TNil end.

Fixpoint GetTransport (fresh : nat) (f : factory) (t : trans) : outcome trans :=
  match f with
  | FPlain => Ok t                                                   (* ttransport_factory.go:41-43 *)
  | FFramed f => t' <- GetTransport (S fresh) f t ;; Ok (TFramed fresh t') (* tframed_transport.go:41-49 *)
  | FIos rd wr isrw =>                                               (* tiostream_transport.go:46-78 *)
    match t with TIos rd' wr' isrw' => ios_again fresh rd' wr' isrw' | _ => ios_again fresh rd wr isrw end
  | FMem size =>                                                     (* tmemory_buffer.go:40-48 *)
    match t with
    | TMem _ size' => if 0 <? size' then NewTMemoryBufferLen fresh size' else NewTMemoryBufferLen fresh size
    | _ => NewTMemoryBufferLen fresh size
    end
  | FHttp u post =>                                                  (* thttp_client.go:42-60 *)
    match t with
    | THttp (Some url) _ (Some _) => Ok (NewTHttpPostClient fresh url)
    | THttp (Some url) _ None => Ok (NewTHttpClient url)
    | _ => Ok (if post then NewTHttpPostClient fresh u else NewTHttpClient u)
    end
  | FNbSock addr =>                                                  (* tnonblocking_socket.go:43-53, 64-72 *)
    match t with
    | TNbSock addr' timeout _ => Ok (TNbSock addr' timeout None)
    | _ => Ok (TNbSock addr 0 None)
    end
  | FSrvSock addr timeout =>                                         (* tserver_socket.go:52-62, 81-84 *)
    match t with
    | TSrvSock (Some addr') timeout' _ => Ok (TSrvSock (Some addr') timeout' None)
    | _ => Ok (TSrvSock addr timeout None)
    end
  | FNbSrvSock addr =>                                               (* tnonblocking_server_socket.go:42-52, 63-71 *)
    match t with
    | TNbSrvSock (Some addr') timeout' _ => Ok (TNbSrvSock (Some addr') timeout' None)
    | _ => Ok (TNbSrvSock addr 0 None)
    end
  end.
End Get.
