(** The tutorial's server and client, tutorial/go/src. *)
From Coq Require Import ZArith List Bool String.
From Verif Require Import Base Errors Transport Proto Values Arith TField GoVal Compare Strconv Gen AppExc Names Rpc.
Import ListNotations.
Open Scope list_scope.
Open Scope Z_scope.

(** ** The service *)

(** tutorial.thrift and shared.thrift of the Thrift distribution, which the tutorial is generated from; they are
    not in the repository.  The methods of CalculatorHandler (CalculatorHandler.go:38-100) and the members it and
    GoClient.go use fix all of it but the ids, the default of num1 and the comment.
    The tutorial calls the operations tutorial.ADD and so on; generated files declare Operation_ADD
    (t_go_generator.cc:611), which is what is meant here. *)
Definition op_name : bytes := lit "Operation".
Definition op_consts : list (bytes * Z) :=
  [(lit "ADD", 1); (lit "SUBTRACT", 2); (lit "MULTIPLY", 3); (lit "DIVIDE", 4)].
Definition ADD : Z := 1.
Definition SUBTRACT : Z := 2.
Definition MULTIPLY : Z := 3.
Definition DIVIDE : Z := 4.
Definition op_ty : ty := TyEnum 1 op_name op_consts.
Definition mk_op (z : Z) : any := mk_enum 1 op_name op_consts z.
Definition work_name : bytes := lit "Work".
Definition work_ms : list member :=
  [Mem 1 (lit "num1") false (Some (AInt32 0)) TyI32; Mem 2 (lit "num2") false None TyI32;
   Mem 3 (lit "op") false None op_ty; Mem 4 (lit "comment") true None TyString].
Definition invalid_name : bytes := lit "InvalidOperation".
Definition invalid_ms : list member :=
  [Mem 1 (lit "what") false None TyI32; Mem 2 (lit "why") false None TyString].
Definition shared_name : bytes := lit "SharedStruct".
Definition shared_ms : list member :=
  [Mem 1 (lit "key") false None TyI32; Mem 2 (lit "value") false None TyString].

Definition f_getStruct : func :=
  Fn (lit "getStruct") [Mem 1 (lit "key") false None TyI32] (Some (TyStruct shared_name shared_ms)) [] false.
Definition f_ping : func := Fn (lit "ping") [] None [] false.
Definition f_add : func :=
  Fn (lit "add") [Mem 1 (lit "num1") false None TyI32; Mem 2 (lit "num2") false None TyI32] (Some TyI32) [] false.
Definition f_calculate : func :=
  Fn (lit "calculate") [Mem 1 (lit "logid") false None TyI32; Mem 2 (lit "w") false None (TyStruct work_name work_ms)]
     (Some TyI32) [Mem 1 (lit "ouch") false None (TyStruct invalid_name invalid_ms)] false.
Definition f_zip : func := Fn (lit "zip") [] None [] true.
(** Calculator extends SharedService. *)
Definition calculator : list func := [f_getStruct; f_ping; f_add; f_calculate; f_zip].

(** ** CalculatorHandler *)

(** The log, a Go map from int to *SharedStruct: CalculatorHandler.go:30-36. *)
Definition tlog : Type := list (Z * any).
Definition log_get (l : tlog) (k : Z) : any :=
  match find (fun e => fst e =? k) l with Some e => snd e | None => ANil end.
Definition log_put (l : tlog) (k : Z) (v : any) : tlog := (k, v) :: filter (fun e => negb (fst e =? k)) l.

Definition mk_invalid (what : Z) (why : bytes) : any :=
  AStruct 0 invalid_name (fc_of invalid_ms) [(1, AInt32 what); (2, AStr why)].
Definition mk_shared (key : Z) (value : bytes) : any :=
  AStruct 0 shared_name (fc_of shared_ms) [(1, AInt32 key); (2, AStr value)].
Definition s_divide : bytes := lit "Cannot divide by 0".
Definition s_operation : bytes := lit "Unknown operation".

(** Add, CalculatorHandler.go:43-46. *)
Definition h_Add (num1 num2 : Z) : Z := wraps 32 (num1 + num2).
(** Calculate, CalculatorHandler.go:48-89: val, ouch (ANil: nil) and the log; err is nil.  A nil Work panics at
    once, in the arguments of fmt.Print.  Op, Num1, Num2 are the members 3, 1, 2 of Work. *)
Definition h_Calculate (p : tlog) (logid : Z) (w : any) : outcome (Z * any * tlog) :=
  match w with
  | AStruct _ _ _ attrs =>
    match attribute attrs 3, attribute attrs 1, attribute attrs 2 with
    | AEnum _ op _, AInt32 num1, AInt32 num2 =>
      let keep val := Ok (val, ANil, log_put p logid (mk_shared logid (FormatInt val))) in
      if op =? ADD then keep (wraps 32 (num1 + num2))
      else if op =? SUBTRACT then keep (wraps 32 (num1 - num2))
      else if op =? MULTIPLY then keep (wraps 32 (num1 * num2))
      else if op =? DIVIDE then
        if num2 =? 0 then Ok (0, mk_invalid (wraps 32 op) s_divide, p)
        else keep (wraps 32 (Z.quot num1 num2))
      else Ok (0, mk_invalid (wraps 32 op) s_operation, p)
    | _, _, _ => Panic           (* not of the Go types of the members *)
    end
  | _ => Panic
  end.
(** GetStruct, CalculatorHandler.go:91-95: nil for a key without an entry. *)
Definition h_GetStruct (p : tlog) (key : Z) : any := log_get p key.

(** The handler as processors use it.  Those modelled in Rpc know no panics; the arguments on which Calculate
    panics, and values that do not have the Go types of the arguments, fail with this text instead. *)
Definition s_panic : bytes := lit "panic".
Definition tut_handle (p : tlog) (name : bytes) (vals : list any) : (list (Z * any) * option bytes) * tlog :=
  if str_eq name (lit "getStruct") then
    match vals with
    | [AInt32 key] => (([(0, h_GetStruct p key)], None), p)
    | _ => (([], Some s_panic), p)
    end
  else if str_eq name (lit "add") then
    match vals with
    | [AInt32 a; AInt32 b] => (([(0, AInt32 (h_Add a b))], None), p)
    | _ => (([], Some s_panic), p)
    end
  else if str_eq name (lit "calculate") then
    match vals with
    | [AInt32 logid; w] =>
      if wraps 32 logid =? logid then
        match h_Calculate p logid w with
        | Ok (val, ouch, p') => (([(0, AInt32 val); (1, ouch)], None), p')
        | _ => (([], Some s_panic), p)
        end
      else (([], Some s_panic), p)
    | _ => (([], Some s_panic), p)
    end
  else (([], None), p).                          (* Ping and Zip, 38-41, 97-100 *)

(** ** The client *)

(** tutorial.NewWork() with Op, Num1 and Num2 set; the generated client sends a copy. *)
Definition new_work (op num1 num2 : Z) : any :=
  AStruct 0 work_name (fc_of work_ms) [(1, AInt32 num1); (2, AInt32 num2); (3, mk_op op); (4, AStr [])].
(** The calls Perform makes when none fails, GoClient.go:30-72.  What it prints is not modelled. *)
Definition Perform : list (func * list any) :=
  [(f_ping, []);
   (f_add, [AInt32 1; AInt32 1]);
   (f_calculate, [AInt32 1; new_work DIVIDE 1 0]);
   (f_calculate, [AInt32 1; new_work SUBTRACT 15 10]);
   (f_getStruct, [AInt32 1])].
(** The names the handler uses for the operations, CalculatorHandler.go:51, 54, 57, 60 (GoClient.go:38, 51 too). *)
Definition used_names : list bytes := [lit "ADD"; lit "SUBTRACT"; lit "MULTIPLY"; lit "DIVIDE"].
(** The constants of the generated package, t_go_generator.cc:611. *)
Definition declared_names : list bytes := map (fun c => enum_label op_name (fst c)) op_consts.
