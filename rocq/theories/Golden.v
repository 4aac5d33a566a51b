(** The types and the service of tests/generation/simple.thrift, as the golden files
    tests/generation/golden/gen-go/simple have them. *)
From Coq Require Import ZArith List Bool String.
From Verif Require Import Base Errors Transport Proto Values Arith TField GoVal Compare Strconv Gen AppExc Names Rpc.
Import ListNotations.
Open Scope list_scope.
Open Scope Z_scope.

(** simple.thrift:3-20; ttypes.go:23-29, 63-69, 103-110.  The numbers 1, 2, 3 name the Go types. *)
Definition undefined_ty : ty := TyEnum 1 (lit "UndefinedValues") [(lit "One", 0); (lit "Two", 1); (lit "Three", 2)].
Definition defined_ty : ty := TyEnum 2 (lit "DefinedValues") [(lit "One", 1); (lit "Two", 2); (lit "Three", 3)].
Definition heterogeneous_ty : ty :=
  TyEnum 3 (lit "HeterogeneousValues") [(lit "One", 0); (lit "Two", 2); (lit "Three", 3); (lit "Four", 4)].
(** An enum of Go type [t] that holds [z]. *)
Definition enum_of (t : ty) (z : Z) : any := match t with TyEnum tag n cs => mk_enum tag n cs z | _ => ANil end.

(** simple.thrift:22-32; ttypes.go:160-171 and the constructor, 173-199. *)
Definition container_name : bytes := lit "ContainerOfEnums".
Definition container_ms : list member :=
  [Mem 1 (lit "first") false None undefined_ty; Mem 2 (lit "second") false None defined_ty;
   Mem 3 (lit "third") false None heterogeneous_ty; Mem 4 (lit "optional_fourth") true None undefined_ty;
   Mem 5 (lit "optional_fifth") true None defined_ty; Mem 6 (lit "optional_sixth") true None heterogeneous_ty;
   Mem 7 (lit "default_seventh") true (Some (enum_of undefined_ty 0)) undefined_ty;
   Mem 8 (lit "default_eighth") true (Some (enum_of defined_ty 1)) defined_ty;
   Mem 9 (lit "default_nineth") true (Some (enum_of heterogeneous_ty 0)) heterogeneous_ty].
Definition container_ty : ty := TyStruct container_name container_ms.
(** A *ContainerOfEnums whose members hold [zs]. *)
Definition container (zs : list Z) : any :=
  AStruct 0 container_name (fc_of container_ms)
    (map (fun mz => (m_id (fst mz), enum_of (m_ty (fst mz)) (snd mz))) (combine container_ms zs)).

(** simple.thrift:34-36; ContainerOfEnumsTestService.go:23-30, 61-117 (client), 141-210 (processor), 216-558
    (EchoArgs, EchoResult). *)
Definition f_echo : func := Fn (lit "echo") [Mem 1 (lit "message") false None container_ty] (Some container_ty) [] false.
Definition echo_service : list func := [f_echo].
(** A handler whose Echo returns its argument; [h] counts the calls. *)
Definition echo_handle (h : Z) (name : bytes) (vals : list any) : (list (Z * any) * option bytes) * Z :=
  (([(0, nth 0 vals ANil)], None), h + 1).
