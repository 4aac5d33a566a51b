(** The Go files the generator writes for a program, seen from their top level: imports,
    package-level declarations, and what these refer to: t_go_generator.cc:416-850,
    1402-1790, 2183-2330, 3110-3198. *)
From Coq Require Import ZArith List Bool Lia String.
From Verif Require Import Base Strconv Gen Names PropNames.
Import ListNotations.
Open Scope Z_scope.
Open Scope list_scope.

(** ** A program as the parser hands it over *)

(** A type as it is named in the IDL: a base type, a container, a struct or exception, an enum or
    typedef; [m] is the Go module of the program that declares it. *)
Inductive ity : Type :=
| IBase | IContainer | IStruct (m name : bytes) | INamed (m name : bytes).
(** A function: name, arguments, return type (None: void), declared exceptions, whether oneway. *)
Record pfn : Type := PFn {
  pf_name : bytes; pf_args : list (bytes * ity); pf_ret : option ity; pf_exc : list (bytes * ity); pf_oneway : bool }.
Record pservice : Type := PService {
  ps_name : bytes; ps_extends : option (bytes * bytes); ps_fns : list pfn }.
(** A constant: the name of its type, its own name, its type, and whether what render_const_value
    prints for it (Consts.v) names the library. *)
Record pconst : Type := PConst { pc_tname : bytes; pc_name : bytes; pc_ty : ity; pc_lib : bool }.
(** A program: its Go module (get_real_go_module, :218-226), the modules of the programs it
    includes, and what it declares; exceptions are with the structs. *)
Record program : Type := Program {
  p_module : bytes;
  p_includes : list bytes;
  p_typedefs : list (bytes * ity);
  p_enums : list (bytes * list bytes);
  p_consts : list pconst;
  p_structs : list (bytes * list ity);
  p_services : list pservice }.

(** ** Model: what is printed *)

(** An item at the top level of a file: an import, or a declaration with the package-level names
    it declares (methods, func init and blank names declare none), the packages it names and the
    names of its own package it uses.  A name of the predeclared types is no such name. *)
Inductive item : Type :=
| Import (path : bytes)
| Decl (names pkgs uses : list bytes).

Definition s_fmt := Eval vm_compute in lit "fmt".
Definition s_math := Eval vm_compute in lit "math".
Definition s_thrift := Eval vm_compute in lit "thrift".

(** type_to_go_type, :3257-3317: no case looks at the program of the type. *)
Definition type_pkgs (t : ity) : list bytes := match t with IContainer => [s_thrift] | _ => [] end.
Definition type_uses (t : ity) : list bytes :=
  match t with IStruct _ n | INamed _ n => [publicize n] | _ => [] end.

(** go_imports, :533-551: one import declaration of three packages, then func init. *)
Definition go_imports : list item := [Import s_fmt; Import s_math; Import s_thrift; Decl [] [s_math] []].
(** render_includes, :485-499. *)
Definition render_includes (p : program) : list item := map Import (p_includes p).

(** generate_typedef, :570-582: nothing is printed when the two names are the same. *)
Definition typedef_skipped (d : bytes * ity) : bool :=
  match snd d with INamed _ n => beq (publicize n) (publicize (fst d)) | _ => false end.
Definition generate_typedef (d : bytes * ity) : list item :=
  if typedef_skipped d then [] else [Decl [publicize (fst d)] (type_pkgs (snd d)) (type_uses (snd d))].

(** generate_enum, :590-647. *)
Definition generate_enum (e : bytes * list bytes) : list item :=
  let n := publicize (fst e) in
  [Decl (n :: map (fun c => n ++ lit "_" ++ c) (snd e) ++ [lit "From" ++ n ++ lit "String"]) [] [n]].

(** generate_const, :654-667: a const, or a var given its value in the second func init. *)
Definition const_goname (c : pconst) : bytes := publicize (pc_tname c) ++ lit "_" ++ publicize (pc_name c).
Definition generate_const (c : pconst) : list item :=
  [Decl [const_goname c] (type_pkgs (pc_ty c)) (type_uses (pc_ty c))].
Definition const_init (p : program) : list item :=
  [Decl [] (flat_map (fun c => if pc_lib c then [s_thrift] else []) (p_consts p)) []].

(** generate_go_struct_definition, :856-1036: the type, the function that makes one, and the
    methods, which use fmt (:987) and the library (the embedded thrift.TStruct, :868). *)
Definition generate_struct (s : bytes * list ity) : list item :=
  let n := publicize (fst s) in
  [Decl [n; lit "New" ++ n] [s_thrift; s_fmt] (n :: flat_map type_uses (snd s))].

(** ttypes.go: init_generator (:473-479), then what t_generator::generate_program asks for in its
    order, then close_generator (:555-563). *)
Definition types_file (p : program) : list item :=
  go_imports ++ render_includes p ++
  flat_map generate_typedef (p_typedefs p) ++ flat_map generate_enum (p_enums p) ++
  flat_map generate_const (p_consts p) ++ flat_map generate_struct (p_structs p) ++ const_init p.

(** The types a signature names: function_signature_if and argument_list, :3125-3183. *)
Definition fn_types (f : pfn) : list ity :=
  map snd (pf_args f) ++ match pf_ret f with Some t => [t] | None => [] end ++ map snd (pf_exc f).
(** Service names come with their module always: type_name, :3185-3198. *)
Definition extends_pkgs (s : pservice) : list bytes :=
  match ps_extends s with Some (m, _) => [m] | None => [] end.

(** generate_service_interface, :1484-1522. *)
Definition generate_interface (s : pservice) : list item :=
  [Decl [lit "I" ++ publicize (ps_name s)]
        (extends_pkgs s ++ flat_map type_pkgs (flat_map fn_types (ps_fns s)))
        (flat_map type_uses (flat_map fn_types (ps_fns s)))].

(** generate_service_client, :1529-1789: the type and the two functions that make one; then the
    methods, whose Send makes the arguments (:1675, 1686) and whose Recv the result (:1704, 1756). *)
Definition client_type (s : pservice) : bytes := publicize (ps_name s) ++ lit "Client".
Definition client_method (s : pservice) (f : pfn) : list item :=
  [Decl [] (s_thrift :: flat_map type_pkgs (fn_types f))
        (client_type s :: flat_map type_uses (fn_types f) ++
         [lit "New" ++ publicize (privatize (pf_name f) ++ lit "Args");
          lit "New" ++ publicize (privatize (pf_name f) ++ lit "Result")])].
Definition generate_client (s : pservice) : list item :=
  Decl [client_type s; lit "New" ++ client_type s ++ lit "Factory"; lit "New" ++ client_type s ++ lit "Protocol"]
       (s_thrift :: extends_pkgs s) [client_type s] ::
  flat_map (client_method s) (ps_fns s).

(** generate_service_server, :2183-2298, and generate_process_function, :2305-2333: the map is
    filled with values of types named after privatize(publicize(name)) (:2206, 2235); these are
    declared after privatize(name) (:2309). *)
Definition processor_type (s : pservice) : bytes := publicize (ps_name s) ++ lit "Processor".
Definition process_fn (s : pservice) (f : pfn) : list item :=
  [Decl [privatize (ps_name s) ++ lit "Processor" ++ publicize (pf_name f)] [s_thrift]
        [lit "I" ++ publicize (ps_name s);
         lit "New" ++ publicize (pf_name f) ++ lit "Args"; lit "New" ++ publicize (pf_name f) ++ lit "Result"]].
Definition generate_server (s : pservice) : list item :=
  Decl [processor_type s; lit "New" ++ processor_type s] (s_thrift :: extends_pkgs s)
       (processor_type s :: (lit "I" ++ publicize (ps_name s)) ::
        map (fun f => privatize (publicize (ps_name s)) ++ lit "Processor" ++ publicize (pf_name f)) (ps_fns s)) ::
  flat_map (process_fn s) (ps_fns s).

(** generate_service_helpers and generate_go_function_helpers, :1437-1477: the parser names the
    struct of the arguments. *)
Definition fn_helpers (f : pfn) : list item :=
  generate_struct (pf_name f ++ lit "_args", map snd (pf_args f)) ++
  generate_struct (pf_name f ++ lit "_result",
    match pf_ret f with Some t => [t] | None => [] end ++ map snd (pf_exc f)).

(** generate_service, :1402-1430. *)
Definition service_file (s : pservice) : list item :=
  go_imports ++ match ps_extends s with Some (m, _) => [Import m] | None => [] end ++
  generate_interface s ++ generate_client s ++ generate_server s ++ flat_map fn_helpers (ps_fns s).

Definition files (p : program) : list (list item) := types_file p :: map service_file (p_services p).

(** ** Specification: the rules of Go *)

Definition imports (f : list item) : list bytes := flat_map (fun i => match i with Import m => [m] | _ => [] end) f.
Definition names (f : list item) : list bytes := flat_map (fun i => match i with Decl n _ _ => n | _ => [] end) f.
Definition pkgs (f : list item) : list bytes := flat_map (fun i => match i with Decl _ q _ => q | _ => [] end) f.
Definition uses (f : list item) : list bytes := flat_map (fun i => match i with Decl _ _ u => u | _ => [] end) f.

(** A file of a package: its imports come before its declarations, no package is imported twice,
    every import is used, every package named is imported, and a package does not import itself. *)
Definition imports_ok (self : bytes) (f : list item) : Prop :=
  (forall pre n q u post, f = pre ++ Decl n q u :: post -> imports post = []) /\
  NoDup (imports f) /\ (forall m, In m (imports f) <-> In m (pkgs f)) /\ ~ In self (imports f).

(** A package declares a name once, and what it uses it declares. *)
Definition package_names (p : program) : list bytes := flat_map names (files p).
Definition resolved (p : program) : Prop :=
  forall f, In f (files p) -> forall u, In u (uses f) -> In u (package_names p).

(** ** Model: the signatures of the methods of a client *)

(** A method: receiver, parameters, results, the variables declared in the outermost block of its
    body, and what its body takes from outside: nil, the library, functions of the package. *)
Record gfunc : Type := GFunc {
  gf_recv : bytes; gf_params : list bytes; gf_results : list bytes; gf_locals : list bytes; gf_free : list bytes }.

(** t_generator::tmp gives a name and a number, a new one at every call. *)
Definition tmp (name : bytes) (n : Z) : bytes := name ++ FormatInt n.
Definition exc_results (f : pfn) : list bytes := map (fun a => arg_name (fst a)) (pf_exc f).
Definition arg_params (f : pfn) : list bytes := map (fun a => arg_name (fst a)) (pf_args f).

(** function_signature_if, :3125-3158, with the body of :1636-1669. *)
Definition call_method (f : pfn) (n : Z) : gfunc :=
  GFunc (lit "p") (arg_params f)
    (match pf_ret f with Some _ => [tmp (lit "retval") n] | None => [] end ++ exc_results f ++ [lit "err"])
    [] [lit "nil"].
(** :1673-1699. *)
Definition send_method (f : pfn) (n : Z) : gfunc :=
  GFunc (lit "p") (arg_params f) [lit "err"] [lit "oprot"; tmp (lit "args") n]
    [lit "nil"; s_thrift; lit "New" ++ publicize (privatize (pf_name f) ++ lit "Args")].
(** :1704-1783.  err, the last name on the left of the := of :1735, is the result; the other two
    have other types than a result named like them would have. *)
Definition recv_method (f : pfn) (n : Z) : gfunc :=
  GFunc (lit "p") []
    (match pf_ret f with Some _ => [lit "value"] | None => [] end ++ exc_results f ++ [lit "err"])
    [lit "iprot"; lit "mTypeId"; lit "seqId"; tmp (lit "result") n]
    [lit "nil"; s_thrift; lit "New" ++ publicize (privatize (pf_name f) ++ lit "Result")].

(** Go: the names of a function and of the variables declared in the same block all differ, and
    hide nothing its body takes from outside. *)
Definition vars (g : gfunc) : list bytes := gf_recv g :: gf_params g ++ gf_results g ++ gf_locals g.
Definition func_ok (g : gfunc) : Prop :=
  Forall ident (vars g) /\ NoDup (vars g) /\ forall u, In u (gf_free g) -> ~ In u (vars g).
