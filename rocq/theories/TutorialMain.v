(** The tutorial's program: main.go, RunClient and RunServer, tutorial/go/src. *)
From Coq Require Import ZArith List Bool String.
From Verif Require Import Base TField GoVal Compare Serve Names.
Import ListNotations.
Open Scope list_scope.

(** The variables of main after flag.Parse(), main.go:38-51.  Parsing the command line is the flag package's. *)
Record flags : Type := MkFlags {
  g_client : bool; g_server : bool; g_protocol : bytes; g_framed : bool; g_http : bool; g_help : bool
}.
(** The protocol factories main chooses from, 57-65: those of Serve.v and the two JSON ones. *)
Inductive mfactory : Type := MThrift (p : pfactory) | MSimpleJSON | MJSON.

(** What the program meets outside: net.ResolveTCPAddr, NewTServerSocketAddr, Serve (the n-th time), Open and
    Close; [Some e] is an error.  What goes over the connection, and Serve itself, are in Rpc.v, Serve.v, Server.v. *)
Record outside : Type := MkOutside {
  e_resolve : option err; e_listen : option err; e_serve : nat -> option err;
  e_open : option err; e_close : option err
}.
(** What the program does. *)
Inductive deed : Type :=
| DUsage                                         (* prints how it is used *)
| DUnknown                                       (* prints "Invalid protocol specified" *)
| DPerform (t : tfactory) (p : mfactory)         (* Perform on a client of these factories *)
| DServe (t : tfactory) (p : mfactory)           (* Serve of a server of these factories *)
| DPrint (e : err).                              (* prints an error *)
(** How it ends: os.Exit, or main waits for what no goroutine will send, or has not ended by the number of calls of
    Serve looked at. *)
Inductive finish : Type := Exits (status : Z) | Waits | Runs.

(** Usage, main.go:29-34: it does not return. *)
Definition Usage : list deed * finish := ([DUsage], Exits 0).

(** RunClient, GoClient.go:74-89; what Perform returns is dropped (87). *)
Definition RunClient (o : outside) (t : tfactory) (p : mfactory) : list deed * option err :=
  match e_resolve o with
  | Some e => ([DPrint e], Some e)
  | None =>
    match e_open o with
    | Some e => ([DPrint e], Some e)
    | None => ([DPerform t p], e_close o)
    end
  end.
(** The loop of Simple, GoServer.go:56-62: [None] when it has not ended after [n] calls of Serve. *)
Fixpoint serve_for (o : outside) (t : tfactory) (p : mfactory) (n k : nat) : list deed * option unit :=
  match n with
  | O => ([], None)
  | S n' => match e_serve o k with
            | Some e => ([DServe t p; DPrint e], Some tt)
            | None => let '(d, r) := serve_for o t p n' (S k) in (DServe t p :: d, r)
            end
  end.
(** Simple, GoServer.go:40-65.  [Some b]: it has returned; [b]: it has sent 1 on ch (64), which no path does. *)
Definition Simple (o : outside) (t : tfactory) (p : mfactory) (n : nat) : list deed * option bool :=
  match e_resolve o with
  | Some e => ([DPrint e], Some false)
  | None =>
    match e_listen o with
    | Some e => ([DPrint e], Some false)
    | None => let '(d, r) := serve_for o t p n 0 in
              (d, match r with Some tt => Some false | None => None end)
    end
  end.
(** RunServer, GoServer.go:76-81: starts Simple and receives from ch.  [Some Waits]: Simple has returned without
    sending.  (A Go runtime that finds every goroutine asleep ends the program with "deadlock"; whether goroutines of
    the net package keep it from that depends on its version and is not modelled.) *)
Definition RunServer (o : outside) (t : tfactory) (p : mfactory) (n : nat) : list deed * option finish :=
  let '(d, r) := Simple o t p n in
  (d, match r with Some true => None | Some false => Some Waits | None => Some Runs end).

(** The switch, main.go:56-70. *)
Definition choose (name : bytes) : option mfactory :=
  if str_eq name (lit "compact") then Some (MThrift PFCompact)
  else if str_eq name (lit "simplejson") then Some MSimpleJSON
  else if str_eq name (lit "json") then Some MJSON
  else if str_eq name (lit "binary") || str_eq name [] then Some (MThrift NewTBinaryProtocolFactoryDefault)
  else None.
(** main, main.go:36-84, with at most [n] calls of Serve looked at. *)
Definition main (g : flags) (o : outside) (n : nat) : list deed * finish :=
  if g_help g || (g_client g && g_server g) || negb (g_client g || g_server g) then Usage
  else match choose (g_protocol g) with
  | None => let '(d, f) := Usage in (DUnknown :: d, f)
  | Some p =>
    let t := if g_framed g then TFFramed else TFPlain in
    if g_client g then (fst (RunClient o t p), Exits 0)       (* 77 *)
    else if g_server g then
      let '(d, f) := RunServer o t p n in (d, match f with Some f => f | None => Exits 0 end)
    else Usage
  end.
