(** Names and enums of the Go generator, t_go_generator.cc. *)
From Coq Require Import ZArith List Bool Lia String Ascii.
From Verif Require Import Base Gen.
Import ListNotations.
Open Scope Z_scope.
Open Scope list_scope.

(** The bytes of a literal. *)
Definition lit (s : string) : bytes := map (fun a => Z.of_N (N_of_ascii a)) (list_ascii_of_string s).

(** The C library's character classes, in the C locale. *)
Definition isupper (c : Z) : bool := (65 <=? c) && (c <=? 90).
Definition islower (c : Z) : bool := (97 <=? c) && (c <=? 122).
Definition isalpha (c : Z) : bool := isupper c || islower c.
Definition toupper (c : Z) : Z := if islower c then c - 32 else c.
Definition tolower (c : Z) : Z := if isupper c then c + 32 else c.

(** The loop of publicize and privatize from index 1 on, t_go_generator.cc:263-267: an underscore
    and a letter after it become the upper case letter; the index then moves past that letter. *)
Fixpoint camel (s : bytes) : bytes :=
  match s with
  | c :: s' =>
    match s' with
    | d :: s'' => if (c =? 95) && isalpha d then toupper d :: camel s'' else c :: camel s'
    | [] => [c]
    end
  | [] => []
  end.

(** t_go_generator.cc:250-270. *)
Definition publicize (s : bytes) : bytes :=
  match s with [] => [] | c :: s' => (if negb (isupper c) then toupper c else c) :: camel s' end.
(** t_go_generator.cc:272-292. *)
Definition privatize (s : bytes) : bytes :=
  match s with [] => [] | c :: s' => (if negb (islower c) then tolower c else c) :: camel s' end.

Definition beq (a b : bytes) : bool := if list_eq_dec Z.eq_dec a b then true else false.

(** t_go_generator.cc:294-410: the switch on the first character. *)
Definition goname_words (c : Z) : list bytes :=
  if (c =? 98) || (c =? 66) then [lit "break"]
  else if (c =? 99) || (c =? 67) then [lit "case"; lit "chan"; lit "const"; lit "continue"]
  else if (c =? 100) || (c =? 68) then [lit "default"; lit "defer"]
  else if (c =? 101) || (c =? 69) then [lit "else"; lit "error"]
  else if (c =? 102) || (c =? 70) then [lit "fallthrough"; lit "for"; lit "func"]
  else if (c =? 103) || (c =? 71) then [lit "go"; lit "goto"]
  else if (c =? 105) || (c =? 73) then [lit "if"; lit "import"; lit "interface"]
  else if (c =? 109) || (c =? 77) then [lit "map"]
  else if (c =? 112) || (c =? 80) then [lit "package"]
  else if (c =? 114) || (c =? 82) then [lit "range"; lit "return"]
  else if (c =? 115) || (c =? 83) then [lit "select"; lit "struct"; lit "switch"]
  else if (c =? 116) || (c =? 84) then [lit "type"]
  else if (c =? 118) || (c =? 86) then [lit "var"]
  else [].
Definition variable_name_to_go_name (s : bytes) : bytes :=
  match s with
  | [] => []
  | c :: _ =>
    let s2 := map tolower s in
    if existsb (beq s2) (goname_words c) then s2 ++ lit "_a1" else s
  end.

(** ** Where names are emitted *)

(** A struct member, t_go_generator.cc:906, and every use of it. *)
Definition member_name (s : bytes) : bytes := publicize (variable_name_to_go_name s).
(** An argument of a function, t_go_generator.cc:3179. *)
Definition arg_name (s : bytes) : bytes := variable_name_to_go_name s.
(** The variable a client's Recv function assigns a received exception to,
    t_go_generator.cc:1773: the name as it is in the IDL. *)
Definition recv_exception_name (s : bytes) : bytes := s.
(** The member it takes it from, t_go_generator.cc:1772. *)
Definition recv_exception_member (s : bytes) : bytes := publicize s.
(** Types, services, functions: t_go_generator.cc:573, 593, 865, 1488, 1630. *)
Definition type_go_name (s : bytes) : bytes := publicize s.

(** ** Enums, t_go_generator.cc:590-648 *)

(** The values: the declared one, else one more than the last ([value] starts at -1).  A C++ [int];
    overflow is not modelled. *)
Fixpoint enum_values (value : Z) (cs : list (bytes * option Z)) : list (bytes * Z) :=
  match cs with
  | [] => []
  | (c, Some v) :: cs' => (c, v) :: enum_values v cs'
  | (c, None) :: cs' => (c, value + 1) :: enum_values (value + 1) cs'
  end.
Record enum : Type := MkEnum { e_name : bytes; e_consts : list (bytes * option Z) }.
Definition enum_consts (e : enum) : list (bytes * Z) := enum_values (-1) (e_consts e).

(** String(): lines 600-602, 622, 633-636 (escape_string changes no identifier). *)
Definition enum_to_string (e : enum) (v : Z) : bytes :=
  enum_String (publicize (e_name e)) (enum_consts e) v.
(** From<Enum>String: lines 603-605, 624-631, 637-640. *)
Fixpoint enum_from (name : bytes) (cs : list (bytes * Z)) (s : bytes) : Z :=
  match cs with
  | [] => -10000
  | (c, z) :: cs' => if beq s (enum_label name c) then z else enum_from name cs' s
  end.
Definition enum_from_string (e : enum) (s : bytes) : Z :=
  enum_from (publicize (e_name e)) (enum_consts e) s.
(** Value() and IsEnum(): lines 643-649; [int] has [intw] bits, 32 or 64. *)
Definition enum_value (intw v : Z) : Z := wraps intw v.
