(** The command-line client that compiler/cpp/src/generate/t_go_generator.cc emits for a service,
    generate_service_remote, lines 1796-2182
    (tests/generation/golden/gen-go/simple/ContainerOfEnumsTestService/ContainerOfEnumsTestService-remote.go is an
    instance). *)
From Coq Require Import ZArith List Bool String.
From Verif Require Import Base Errors Transport Proto Arith Strconv TField GoVal Names Compare Gen Rpc Json.
Import ListNotations.
Local Open Scope list_scope.
Local Notation length := List.length.
Open Scope Z_scope.

(** A service: the functions it declares, which are those get_functions() gives, and those of the services it extends.
    [pkg] is the Go package of the program, package_name_.  Of an argument's type, next to the true type in the member,
    only its name, if it is a typedef, matters: [sf_alias] gives it for each argument. *)
Record sfunc : Type := MkSfunc { sf_fn : func; sf_alias : list (option bytes) }.
Record service : Type := MkService { sv_pkg : bytes; sv_name : bytes; sv_own : list sfunc; sv_parents : list func }.

(** ** What the file imports and what it refers to *)

(** t_go_generator.cc:1812-1822, by the name the package is referred to with. *)
Definition imports (s : service) : list bytes :=
  [lit "flag"; lit "fmt"; lit "math"; lit "net"; lit "url"; lit "os"; lit "strconv"; lit "thrift"; sv_pkg s].

(** The packages named in the code emitted for one argument, t_go_generator.cc:1937-2100. *)
Definition arg_refs (pkg : bytes) (t : ty) (alias : option bytes) : list bytes :=
  match t with
  | TyEnum _ _ _ => [lit "strconv"; lit "flag"; pkg]
  | TyString | TyBinary | TyBool => [lit "flag"]
  | TyByte | TyI16 | TyI32 | TyI64 | TyDouble => [lit "strconv"; lit "flag"]
  | TyStruct _ _ | TyList _ | TySet _ | TyMap _ _ => [lit "flag"; lit "thrift"; pkg]
  end ++ match alias with Some _ => [pkg] | None => [] end.
(** Of one function: the check of the number of arguments, the arguments, the call and what prints it; and its line in Usage,
    t_go_generator.cc:1832-1837, 1921-1937, 2107-2149. *)
Definition fn_refs (pkg : bytes) (f : sfunc) : list bytes :=
  [lit "fmt"; lit "os"; lit "flag"] ++
  flat_map (fun '(m, a) => arg_refs pkg (m_ty m) a) (combine (fn_args (sf_fn f)) (sf_alias f)) ++
  [lit "fmt"].
(** Usage, main up to the switch over the command, and the end, t_go_generator.cc:1826-1917, 2152-2163. *)
Definition refs (s : service) : list bytes :=
  [lit "fmt"; lit "os"; lit "flag"; lit "url"; lit "thrift"; lit "net"; sv_pkg s] ++
  flat_map (fn_refs (sv_pkg s)) (sv_own s) ++ [lit "fmt"; lit "os"].

(** ** The Go types of arguments *)

(** Types of expressions, named after what type_to_go_type prints (t_go_generator.cc:3257-3317). *)
Inductive gotype : Type :=
| GBool | GByte | GInt16 | GInt32 | GInt64 | GFloat64 | GString | GBytes
| GNamed (name : bytes) | GPtr (name : bytes) | GList | GSet | GMap.
Definition go_type (t : ty) : gotype :=
  match t with
  | TyBool => GBool | TyByte => GByte | TyI16 => GInt16 | TyI32 => GInt32 | TyI64 => GInt64
  | TyDouble => GFloat64 | TyString => GString | TyBinary => GBytes
  | TyEnum _ n _ => GNamed (publicize n)
  | TyStruct n _ => GPtr (publicize n)
  | TyList _ => GList | TySet _ => GSet | TyMap _ _ => GMap
  end.
(** What the method of the client takes: argument_list, t_go_generator.cc:3165-3183. *)
Definition param_type (t : ty) (alias : option bytes) : gotype :=
  match alias with Some a => GNamed (publicize a) | None => go_type t end.
(** The type of the variable argvalueI; None: its initialiser does not compile, because New<Alias> is not generated for
    typedefs (generate_typedef, t_go_generator.cc:570-582). *)
Definition argvalue_type (t : ty) (alias : option bytes) : option gotype :=
  match t with
  | TyEnum _ n _ => Some (GNamed (publicize (match alias with Some a => a | None => n end)))
  | TyString | TyBinary => Some GString
  | TyBool => Some GBool
  | TyByte | TyI16 => Some GByte
  | TyI32 => Some GInt32 | TyI64 => Some GInt64 | TyDouble => Some GFloat64
  | TyStruct n _ => match alias with Some _ => None | None => Some (GPtr (publicize n)) end
  | TyList _ | TySet _ | TyMap _ _ => Some (param_type t alias)
  end.
(** Conversions T(v) that Go permits, where the underlying type of T is that of [t]: between numbers, between strings and byte
    slices, or to the same underlying type. *)
Definition numeric (g : gotype) : bool :=
  match g with GByte | GInt16 | GInt32 | GInt64 | GFloat64 => true | _ => false end.
Definition textual (g : gotype) : bool := match g with GString | GBytes => true | _ => false end.
Definition gotype_eqb (a b : gotype) : bool :=
  match a, b with
  | GBool, GBool | GByte, GByte | GInt16, GInt16 | GInt32, GInt32 | GInt64, GInt64 | GFloat64, GFloat64
  | GString, GString | GBytes, GBytes | GList, GList | GSet, GSet | GMap, GMap => true
  | GNamed m, GNamed n | GPtr m, GPtr n => beq m n
  | _, _ => false
  end.
(** Whether client.F(valueI) type-checks in this argument; t_go_generator.cc:2100-2106. *)
Definition arg_typed (t : ty) (alias : option bytes) : bool :=
  match argvalue_type t alias with
  | None => false
  | Some g =>
    match alias with
    | None => gotype_eqb g (go_type t)
    | Some a => gotype_eqb g (GNamed (publicize a)) || gotype_eqb g (go_type t) ||
                (numeric g && numeric (go_type t)) || (textual g && textual (go_type t))
    end
  end.

(** ** main *)

(** The flags and the other words of the command line after flag.Parse(), t_go_generator.cc:1856-1864. *)
Record flags : Type := MkFlags {
  fl_host : bytes; fl_port : Z; fl_protocol : bytes; fl_url : bytes;
  fl_framed : bool; fl_http : bool; fl_help : bool; fl_args : list bytes }.
Definition no_flags (args : list bytes) : flags :=
  MkFlags (lit "localhost") 9090 (lit "binary") [] false false false args.

(** Transports: an HTTP client of NewTHttpClient, which does GET; a socket; a framed transport over one. *)
Inductive trans : Type := THttpGet (url : bytes) | TSocket (addr : bytes) | TFramed (t : trans).
Inductive wire : Type := WCompact | WSimpleJson | WJson | WBinary.

(** What is outside the program: url.Parse, giving Scheme and Host; net.ResolveTCPAddr; what NewTHttpClient does
    with the network; trans.Open. *)
Record outside : Type := MkOutside {
  o_url : bytes -> option (bytes * bytes);
  o_resolve : bytes -> bool;
  o_get : bytes -> bool;
  o_open : trans -> bool }.

(** What the process does that others see.  What is printed is not modelled beyond whether it goes to standard error. *)
Inductive event : Type :=
| Complains                                   (* fmt.Fprint(os.Stderr, ...) other than in Usage *)
| ShowsUsage
| Opens (t : trans)
| Calls (t : trans) (w : wire) (name : bytes) (args : list any)   (* client.F(args...); the answer or error is printed *)
| Exits (status : Z).

Definition usage : list event := [ShowsUsage; Exits 0].

Section Main.
Variable O : outside.
Variable J : jenv.
Variable x : ext.
Variable M : Z.             (* MaxSkipDepth *)
Variable cf fuel : nat.     (* as in Gen *)

(** The code of argument [i] of [f], of which [m] is the declaration, given flag.Arg(i + 1); None: Usage() and return.
    t_go_generator.cc:1937-2106.  int is 64 bits wide.  ReadField<K> for a [K] no argument has does not compile; here it panics. *)
Definition arg_value (f : func) (i : nat) (m : member) (text : bytes) : outcome (option any) :=
  let atoi (k : Z -> any) := match ParseInt text 64 with (z, None) => Ok (Some (k z)) | _ => Ok None end in
  match m_ty m with
  | TyEnum tag n cs => atoi (mk_enum tag n cs)
  | TyString => Ok (Some (AStr text))
  | TyBinary => Ok (Some (ABytes text))
  | TyBool => Ok (Some (ABool (beq text (lit "true"))))
  | TyByte => atoi (fun z => AByte (wrapu 8 z))
  | TyI16 => atoi (fun z => AInt16 (wrapu 8 z))           (* byte(tmp) *)
  | TyI32 => atoi (fun z => AInt32 (wraps 32 z))
  | TyI64 => match ParseInt text 64 with (z, None) => Ok (Some (AInt64 z)) | _ => Ok None end
  | TyDouble => match x_parse_float x text with (d, None) => Ok (Some (AF64 d)) | _ => Ok None end
  | TyStruct _ _ =>
    '(r, _) <- gread (simpleR J) x M cf fuel (m_ty m) (simple_r [(text, None)]) ;;
    Ok (match r with inl v => Some v | inr _ => None end)
  | TyList _ | TySet _ | TyMap _ _ =>
    match find (fun a => m_id a =? Z.of_nat i + 1) (fn_args f) with
    | None => Panic
    | Some a =>
      '(r, _) <- gread (simpleR J) x M cf fuel (m_ty a) (simple_r [(text, None)]) ;;
      Ok (match r with
          | inl v => Some (attribute (attr_set (init_attrs (fn_args f)) (m_id a) v) (m_id m))
          | inr _ => None
          end)
    end
  end.
(** The arguments in turn; the first that fails ends the program. *)
Fixpoint arg_values (f : func) (i : nat) (ms : list member) (texts : list bytes) : outcome (option (list any)) :=
  match ms with
  | [] => Ok (Some [])
  | m :: ms' =>
    v <- arg_value f i m (match texts with t :: _ => t | [] => [] end) ;;
    match v with
    | None => Ok None
    | Some v => vs <- arg_values f (S i) ms' (tl texts) ;;
                Ok (match vs with Some vs => Some (v :: vs) | None => None end)
    end
  end.

(** switch cmd, t_go_generator.cc:1918-2163 *)
Definition command (s : service) (t : trans) (w : wire) (cmd : bytes) (texts : list bytes) : outcome (list event) :=
  match find (fun f => beq cmd (fn_name (sf_fn f))) (sv_own s) with
  | Some f =>
    if Nat.eqb (length texts) (length (fn_args (sf_fn f)))
    then vs <- arg_values (sf_fn f) 0 (fn_args (sf_fn f)) texts ;;
         Ok (match vs with
             | Some vs => [Calls t w (fn_name (sf_fn f)) vs; Exits 0]
             | None => usage
             end)
    else Ok (Complains :: usage)
  | None => Ok (match cmd with [] => usage | _ => [Complains; Exits 0] end)
  end.

(** switch protocol, t_go_generator.cc:1891-1908; None: Usage(), which does not return. *)
Definition protocol_of (p : bytes) : option wire :=
  if beq p (lit "compact") then Some WCompact
  else if beq p (lit "simplejson") then Some WSimpleJson
  else if beq p (lit "json") then Some WJson
  else if beq p (lit "binary") || beq p [] then Some WBinary
  else None.

(** fmt.Sprint(host, ":", port) *)
Definition address (host : bytes) (port : Z) : bytes := host ++ [58] ++ FormatInt port.

(** t_go_generator.cc:1852-1917.  The variable parsedUrl of main is never assigned (the one set from -u is another, declared
    in the block), so parsedUrl.String() is that of the zero URL, the empty string. *)
Definition main (s : service) (fl : flags) : outcome (list event) :=
  match fl_args fl with
  | [] => Ok usage
  | cmd :: texts =>
    if fl_help fl then Ok usage else
    match
      match fl_url fl with
      | [] => if fl_http fl
              then match o_url O (lit "http://" ++ address (fl_host fl) (fl_port fl)) with
                   | None => None
                   | Some _ => Some (fl_host fl, true)
                   end
              else Some (fl_host fl, false)
      | u => match o_url O u with
             | None => None
             | Some (scheme, host) => Some (host, beq scheme [] || beq scheme (lit "http"))
             end
      end
    with
    | None => Ok (Complains :: usage)
    | Some (host, useHttp) =>
      match
        (if useHttp then (if o_get O [] then Some (THttpGet []) else None)
         else if o_resolve O (address host (fl_port fl))
              then Some (let k := TSocket (address host (fl_port fl)) in if fl_framed fl then TFramed k else k)
              else None)
      with
      | None => Ok [Complains; Exits 1]
      | Some t =>
        match protocol_of (fl_protocol fl) with
        | None => Ok (Complains :: usage)
        | Some w =>
          if o_open O t
          then evs <- command s t w cmd texts ;; Ok (Opens t :: evs)
          else Ok [Complains; Exits 1]
        end
      end
    end
  end.
End Main.
