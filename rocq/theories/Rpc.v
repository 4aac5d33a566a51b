(** Code that compiler/cpp/src/generate/t_go_generator.cc emits for services: clients and
    processors (tests/generation/golden/gen-go/simple/ContainerOfEnumsTestService.go is an
    instance). *)
From Coq Require Import ZArith List Bool Lia.
From Verif Require Import Base Errors Transport Proto Skip Values.
From Verif Require Import Arith TField GoVal Compare Gen AppExc.
Import ListNotations.
Open Scope Z_scope.

(** A function of a service: IDL name, arguments, return type (None: void), declared
    exceptions, whether oneway. *)
Record func : Type := Fn {
  fn_name : bytes;
  fn_args : list member;
  fn_ret : option ty;
  fn_exc : list member;
  fn_oneway : bool
}.

Definition s_args : bytes := [95; 97; 114; 103; 115].                  (* _args *)
Definition s_result : bytes := [95; 114; 101; 115; 117; 108; 116].     (* _result *)
Definition s_success : bytes := [115; 117; 99; 99; 101; 115; 115].
Definition args_name (f : func) : bytes := fn_name f ++ s_args.
Definition result_name (f : func) : bytes := fn_name f ++ s_result.
(** generate_go_function_helpers, t_go_generator.cc:1457-1477. *)
Definition result_members (f : func) : list member :=
  match fn_ret f with Some t => [Mem 0 s_success false None t] | None => [] end ++ fn_exc f.
Definition init_attrs (ms : list member) : list (Z * any) := map (fun m => (m_id m, m_init m)) ms.
(** Named Go results before anything is assigned to them. *)
Definition zero_attrs (ms : list member) : list (Z * any) := map (fun m => (m_id m, go_zero (m_ty m))) ms.

Definition s_unknown : bytes :=                                        (* "Unknown function " *)
  [85; 110; 107; 110; 111; 119; 110; 32; 102; 117; 110; 99; 116; 105; 111; 110; 32].
Definition s_internal : bytes :=                                       (* "Internal error processing " *)
  [73; 110; 116; 101; 114; 110; 97; 108; 32; 101; 114; 114; 111; 114; 32;
   112; 114; 111; 99; 101; 115; 115; 105; 110; 103; 32].
Definition s_colon : bytes := [58; 32].
Definition s_sequence : bytes :=                                (* "ping failed: out of sequence response" *)
  [112; 105; 110; 103; 32; 102; 97; 105; 108; 101; 100; 58; 32; 111; 117; 116; 32; 111; 102; 32;
   115; 101; 113; 117; 101; 110; 99; 101; 32; 114; 101; 115; 112; 111; 110; 115; 101].

(** An error a client or a processor returns: one of the library's or of a transport, an
    application exception, or the handler's own with this text. *)
Inductive rerr : Type :=
| RErr (e : err)
| RApp (x : appexc)
| RHandler (text : bytes).

(** ** Processors *)

Section Processor.
Context {SR SW H : Type}.
Variable R : rproto SR.
Variable W : wproto SW.
Variable flush : wop SW.              (* oprot.Transport().Flush() *)
Variable x : ext.
Variable MaxSkipDepth : Z.
Variable cfuel : nat.                 (* as in Gen *)
Variable fuel : nat.                  (* for the generated readers and writers *)
Variable errtext : err -> bytes.      (* err.Error() of errors the library returns *)
(** The handler: its state, the function called and the values of its arguments, in the order
    of the IDL; returns the values for the members of the result struct and, maybe, the text of
    its error.  A handler that panics is not modelled. *)
Variable handle : H -> bytes -> list any -> (list (Z * any) * option bytes) * H.

(** The result of Process: success, err, and the states afterwards. *)
Record pout : Type := MkPout {
  p_success : bool; p_err : option rerr; p_h : H; p_in : SR; p_out : SW }.

(** WriteMessageBegin(name, EXCEPTION, seqId); x.Write; WriteMessageEnd; Flush, every error
    ignored: t_go_generator.cc:2244-2247, 2323-2326, 2364-2367. *)
Definition write_exception (name : bytes) (seqId : Z) (e : appexc) (so : SW) : outcome SW :=
  '(_, s1) <- wMessageBegin W name EXCEPTION seqId so ;;
  '(_, s2) <- app_write W e s1 ;;
  '(_, s3) <- wMessageEnd W s2 ;;
  '(_, s4) <- flush s3 ;;
  Ok s4.

Definition first_error (e e2 : option err) : option err := match e with Some _ => e | None => e2 end.

(** The processor of one function: generate_process_function, t_go_generator.cc:2303-2393.
    Oneway functions are processed like the others; their result struct stays as created. *)
Definition process_fn (f : func) (seqId : Z) (h : H) (si : SR) (so : SW) : outcome pout :=
  let name := fn_name f in
  '(r, s1) <- gread R x MaxSkipDepth cfuel fuel (TyStruct (args_name f) (fn_args f)) si ;;
  match r with
  | inr e =>
    '(_, s2) <- rMessageEnd R s1 ;;
    so' <- write_exception name seqId (MkExc PROTOCOL_ERROR (errtext e)) so ;;
    Ok (MkPout false (Some (RErr e)) h s2 so')
  | inl args =>
    '(_, s2) <- rMessageEnd R s1 ;;
    let vals := map (fun m => attribute (match args with AStruct _ _ _ a => a | _ => [] end) (m_id m))
                    (fn_args f) in
    let '((attrs, herr), h') := handle h name vals in
    match herr with
    | Some text =>
      so' <- write_exception name seqId
               (MkExc INTERNAL_ERROR (s_internal ++ name ++ s_colon ++ text)) so ;;
      Ok (MkPout false (Some (RHandler text)) h' s2 so')
    | None =>
      let attrs := if fn_oneway f then init_attrs (result_members f) else attrs in
      '(e1, o1) <- wMessageBegin W name REPLY seqId so ;;
      '(e2, o2) <- gwrite_result W x fuel (result_name f) (result_members f) attrs o1 ;;
      '(e3, o3) <- wMessageEnd W o2 ;;
      '(e4, o4) <- flush o3 ;;
      match first_error (first_error (first_error e1 e2) e3) e4 with
      | Some e => Ok (MkPout false (Some (RErr e)) h' s2 o4)
      | None => Ok (MkPout true None h' s2 o4)
      end
    end
  end.

(** The processor map after construction: a later function replaces an earlier one of the same
    name; a service that extends another adds its functions to the parent's map
    (t_go_generator.cc:2225-2229, 2275-2278).  [fs] lists the parent's functions first. *)
Definition lookup_fn (fs : list func) (name : bytes) : option func :=
  find (fun f => str_eq name (fn_name f)) (rev fs).

(** Process, t_go_generator.cc:2235-2252.  A skip or ReadMessageEnd that fails is ignored. *)
Definition process (fs : list func) (h : H) (si : SR) (so : SW) : outcome pout :=
  '((name, _, seqId), e, s1) <- rMessageBegin R si ;;
  match e with
  | Some e => Ok (MkPout false (Some (RErr e)) h s1 so)
  | None =>
    match lookup_fn fs name with
    | None =>
      '(_, s2) <- skip_default R MaxSkipDepth fuel STRUCT s1 ;;
      '(_, s3) <- rMessageEnd R s2 ;;
      let ex := MkExc UNKNOWN_METHOD (s_unknown ++ name) in
      so' <- write_exception name seqId ex so ;;
      Ok (MkPout false (Some (RApp ex)) h s3 so')
    | Some f => process_fn f seqId h s1 so
    end
  end.
End Processor.
Arguments MkPout {SR SW H}.
Arguments p_success {SR SW H}. Arguments p_err {SR SW H}. Arguments p_h {SR SW H}.
Arguments p_in {SR SW H}. Arguments p_out {SR SW H}.

(** ** Clients *)

(** Where a protocol object came from: the client's factory, on the client's transport, or the
    caller of the constructor. *)
Inductive origin : Type := FromFactory | Given.

(** The client struct, t_go_generator.cc:1561-1568; whether the factory is non-nil, the two
    protocols (None: nil), the sequence number. *)
Record client : Type := MkClient {
  c_factory : bool;
  c_in : option origin;
  c_out : option origin;
  c_seq : Z
}.
(** NewXClientFactory, 1573-1593, and NewXClientProtocol, 1598-1618. *)
Definition new_client_factory : client := MkClient true (Some FromFactory) (Some FromFactory) 0.
Definition new_client_protocol (iprot oprot : bool) : client :=
  MkClient false (if iprot then Some Given else None) (if oprot then Some Given else None) 0.

Section Client.
Context {SR SW : Type}.
Variable R : rproto SR.
Variable W : wproto SW.
Variable flush : wop SW.
(** GetProtocol(p.Transport): a protocol on the same transport, its own state new. *)
Variable freshR : SR -> SR.
Variable freshW : SW -> SW.
Variable x : ext.
Variable MaxSkipDepth : Z.
Variable cfuel fuel : nat.

(** The states of the protocols: those on the client's transport and those given. *)
Record world : Type := MkWorld { o_own : SW; o_given : SW; i_own : SR; i_given : SR }.

(** SendX, t_go_generator.cc:1669-1703: the error (of args.Write alone) and what it leaves.
    A nil factory or protocol is a panic. *)
Definition send (f : func) (args : list any) (c : client) (w : world)
  : outcome (option err * client * world) :=
  match c_out c with
  | None => Panic                                  (* oprot is nil in oprot.WriteMessageBegin *)
  | Some _ =>
    if negb (c_factory c) then Panic               (* p.ProtocolFactory is nil *)
    else
      let o := freshW (o_own w) in
      let seq := wraps 32 (c_seq c + 1) in
      '(_, o1) <- wMessageBegin W (fn_name f) CALL seq o ;;
      let a := AStruct 0 (args_name f) (fc_of (fn_args f)) (combine (map m_id (fn_args f)) args) in
      '(e, o2) <- gwrite W x fuel (TyStruct (args_name f) (fn_args f)) a o1 ;;
      '(_, o3) <- wMessageEnd W o2 ;;
      '(_, o4) <- flush o3 ;;
      Ok (e, MkClient (c_factory c) (c_in c) (Some FromFactory) seq,
          MkWorld o4 (o_given w) (i_own w) (i_given w))
  end.

(** What RecvX returns: the values of the result members (success and exceptions), the error. *)
Definition cres : Type := list (Z * any) * option rerr.

(** RecvX on a protocol, t_go_generator.cc:1739-1781.  When result.Read fails the members it had
    read by then are returned along with the error; here they are left out. *)
Definition recv_on (f : func) (seq : Z) (s : SR) : outcome (cres * SR) :=
  let ms := result_members f in
  '((_, mTypeId, seqId), e, s1) <- rMessageBegin R s ;;
  match e with
  | Some e => Ok ((zero_attrs ms, Some (RErr e)), s1)
  | None =>
    if mTypeId =? EXCEPTION then
      '(ex, e, s2) <- app_read R MaxSkipDepth fuel s1 ;;
      match e with
      | Some e => Ok ((zero_attrs ms, Some (RErr e)), s2)
      | None =>
        '(e, s3) <- rMessageEnd R s2 ;;
        match e with
        | Some e => Ok ((zero_attrs ms, Some (RErr e)), s3)
        | None => Ok ((zero_attrs ms, match ex with Some ex => Some (RApp ex) | None => None end), s3)
        end
      end
    else if negb (seq =? seqId) then
      Ok ((zero_attrs ms, Some (RApp (MkExc BAD_SEQUENCE_ID s_sequence))), s1)
    else
      '(r, s2) <- gread R x MaxSkipDepth cfuel fuel (TyStruct (result_name f) ms) s1 ;;
      '(_, s3) <- rMessageEnd R s2 ;;
      match r with
      | inr e => Ok ((init_attrs ms, Some (RErr e)), s3)
      | inl v => Ok ((match v with AStruct _ _ _ a => a | _ => [] end, None), s3)
      end
  end.
Definition recv (f : func) (c : client) (w : world) : outcome (cres * client * world) :=
  match c_in c with
  | None =>
    if negb (c_factory c) then Panic
    else
      '(r, s) <- recv_on f (c_seq c) (freshR (i_own w)) ;;
      Ok (r, MkClient (c_factory c) (Some FromFactory) (c_out c) (c_seq c),
          MkWorld (o_own w) (o_given w) s (i_given w))
  | Some FromFactory =>
    '(r, s) <- recv_on f (c_seq c) (i_own w) ;;
    Ok (r, c, MkWorld (o_own w) (o_given w) s (i_given w))
  | Some Given =>
    '(r, s) <- recv_on f (c_seq c) (i_given w) ;;
    Ok (r, c, MkWorld (o_own w) (o_given w) (i_own w) s)
  end.
End Client.
Arguments MkWorld {SR SW}.
Arguments o_own {SR SW}. Arguments o_given {SR SW}. Arguments i_own {SR SW}. Arguments i_given {SR SW}.

(** ** A client and a processor joined by two pipes *)

(** Not code of the repository: what the client wrote is handed to the processor and what that
    wrote to the client, cut into any pieces. *)
Section Pair.
Context {SR SW H : Type}.
Variable R : rproto SR.
Variable W : wproto SW.
Variable flush : wop SW.
Variable freshR : SR -> SR.
Variable freshW : SW -> SW.
Variable x : ext.
Variable MaxSkipDepth : Z.
Variable cfuel fuel : nat.
Variable errtext : err -> bytes.
Variable handle : H -> bytes -> list any -> (list (Z * any) * option bytes) * H.
Variable fs : list func.
Variable drain : SW -> bytes * SW.          (* take what was written *)
Variable feed : SR -> list bytes -> SR.     (* add pieces to what can be read *)
Variable cut : nat -> bytes -> list bytes.  (* how the n-th transfer is cut *)

Record pair : Type := MkPair {
  pr_c : client; pr_w : @world SR SW; pr_h : H; pr_in : SR; pr_out : SW }.

(** One call of X of the generated client (t_go_generator.cc:1626-1659: SendX and, unless the
    function is oneway, RecvX), with the processor run once in between. *)
Definition call (n : nat) (f : func) (args : list any) (st : pair) : outcome (cres * pair) :=
  '(e, c1, w1) <- send W flush freshW x fuel f args (pr_c st) (pr_w st) ;;
  match e with
  | Some e => Ok ((zero_attrs (result_members f), Some (RErr e)),
                  MkPair c1 w1 (pr_h st) (pr_in st) (pr_out st))
  | None =>
    let '(b1, o1) := drain (o_own w1) in
    p <- process R W flush x MaxSkipDepth cfuel fuel errtext handle fs (pr_h st)
           (feed (pr_in st) (cut (2 * n) b1)) (pr_out st) ;;
    let '(b2, so') := drain (p_out p) in
    let w2 := MkWorld o1 (o_given w1) (feed (i_own w1) (cut (2 * n + 1) b2)) (i_given w1) in
    if fn_oneway f then Ok (([], None), MkPair c1 w2 (p_h p) (p_in p) so')
    else
      '(r, c2, w3) <- recv R freshR x MaxSkipDepth cfuel fuel f c1 w2 ;;
      Ok (r, MkPair c2 w3 (p_h p) (p_in p) so')
  end.
Fixpoint calls (n : nat) (l : list (func * list any)) (st : pair) : outcome (list cres * pair) :=
  match l with
  | [] => Ok ([], st)
  | (f, args) :: l' =>
    '(r, st1) <- call n f args st ;;
    '(rs, st2) <- calls (S n) l' st1 ;;
    Ok (r :: rs, st2)
  end.
End Pair.
Arguments MkPair {SR SW H}.
Arguments pr_c {SR SW H}. Arguments pr_w {SR SW H}. Arguments pr_h {SR SW H}.
Arguments pr_in {SR SW H}. Arguments pr_out {SR SW H}.
