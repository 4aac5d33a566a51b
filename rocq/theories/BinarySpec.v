(** The published Thrift binary encoding, as pure functions from values to bytes
    (http://thrift.apache.org, "binary protocol encoding").  Nothing here refers to the
    model of the Go code. *)
From Coq Require Import ZArith List Bool Lia.
From Verif Require Import Base Arith Values.
Import ListNotations.
Open Scope Z_scope.

Definition sb_bool (b : bool) : bytes := [if b then 1 else 0].
Definition sb_i16 (v : Z) : bytes := be 2 v.
Definition sb_i32 (v : Z) : bytes := be 4 v.
Definition sb_i64 (v : Z) : bytes := be 8 v.
Definition sb_double (bits : Z) : bytes := be 8 bits.
Definition sb_string (s : bytes) : bytes := be 4 (Z.of_nat (length s)) ++ s.
Definition sb_field (t id : Z) : bytes := t :: be 2 id.
Definition sb_stop : bytes := [0].
Definition sb_list (et n : Z) : bytes := et :: be 4 n.
Definition sb_map (kt vt n : Z) : bytes := kt :: vt :: be 4 n.
(** message headers: version word 0x8001 in the upper half and the type in the low byte, or
    (old form) the bare name first *)
Definition sb_message_strict (name : bytes) (t seqid : Z) : bytes :=
  [128; 1; 0; t] ++ sb_string name ++ be 4 seqid.
Definition sb_message_old (name : bytes) (t seqid : Z) : bytes :=
  sb_string name ++ [t] ++ be 4 seqid.

Fixpoint sb_val (v : tval) : bytes :=
  match v with
  | VBool b => sb_bool b
  | VByte z => [z]
  | VI16 z => sb_i16 z
  | VI32 z => sb_i32 z
  | VI64 z => sb_i64 z
  | VDouble z => sb_double z
  | VStr s => sb_string s
  | VList et l | VSet et l =>
    sb_list et (Z.of_nat (length l)) ++ concat (map sb_val l)
  | VMap kt vt l =>
    sb_map kt vt (Z.of_nat (length l)) ++
    concat (map (fun kv => sb_val (fst kv) ++ sb_val (snd kv)) l)
  | VStruct fs =>
    concat (map (fun f => sb_field (vtype (snd f)) (fst f) ++ sb_val (snd f)) fs) ++ sb_stop
  end.
