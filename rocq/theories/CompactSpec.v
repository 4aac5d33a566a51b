(** The published Thrift compact encoding (thrift-compact-protocol.md), as pure functions from
    values to bytes.  Nothing here refers to the model of the Go code. *)
From Coq Require Import ZArith List Bool Lia.
From Verif Require Import Base Arith Values.
Import ListNotations.
Open Scope Z_scope.

(** Zigzag: 0, -1, 1, -2, 2, ... are numbered 0, 1, 2, 3, 4, ... *)
Definition zz (z : Z) : Z := if z <? 0 then - 2 * z - 1 else 2 * z.

(** Base-128 groups, least significant first, the high bit set on all but the last; [n] bounds
    the number of groups. *)
Fixpoint uvar (n : nat) (u : Z) : bytes :=
  match n with
  | O => []
  | S n' => if u <? 128 then [u] else (128 + u mod 128) :: uvar n' (u / 128)
  end.
(** 10 groups hold every 64-bit number. *)
Definition sc_var (u : Z) : bytes := uvar 10 u.

Definition sc_int (v : Z) : bytes := sc_var (zz v).
Definition sc_double (bits : Z) : bytes := le 8 bits.
Definition sc_string (s : bytes) : bytes := sc_var (Z.of_nat (length s)) ++ s.
(** 1 is true, 2 is false *)
Definition sc_bool (b : bool) : Z := if b then 1 else 2.

(** Type nibbles *)
Definition sc_type (t : Z) : Z :=
  match t with
  | 2 => 1 | 3 => 3 | 6 => 4 | 8 => 5 | 10 => 6 | 4 => 7 | 11 => 8
  | 15 => 9 | 14 => 10 | 13 => 11 | 12 => 12 | _ => 0
  end.

(** Field header with type nibble [t]: one byte when the id exceeds the previous one by 1 to
    15, otherwise the type and the zigzag varint of the id. *)
Definition short (last id : Z) : bool := (0 <? id - last) && (id - last <=? 15).
Definition sc_field (last t id : Z) : bytes :=
  if short last id then [(id - last) * 16 + t] else t :: sc_int id.
Definition sc_stop : bytes := [0].
Definition sc_list (et n : Z) : bytes :=
  if n <=? 14 then [n * 16 + sc_type et] else (240 + sc_type et) :: sc_var n.
Definition sc_map (kt vt n : Z) : bytes :=
  if n =? 0 then [0] else sc_var n ++ [sc_type kt * 16 + sc_type vt].
(** protocol id, type in the upper three bits over version 1, sequence id as an unsigned
    32-bit varint, name *)
Definition sc_message (name : bytes) (t seqid : Z) : bytes :=
  [130; t * 32 + 1] ++ sc_var (seqid mod 2 ^ 32) ++ sc_string name.

Fixpoint sc_val (v : tval) : bytes :=
  match v with
  | VBool b => [sc_bool b]
  | VByte z => [z]
  | VI16 z | VI32 z | VI64 z => sc_int z
  | VDouble z => sc_double z
  | VStr s => sc_string s
  | VList et l | VSet et l =>
    sc_list et (Z.of_nat (length l)) ++ concat (map sc_val l)
  | VMap kt vt l =>
    sc_map kt vt (Z.of_nat (length l)) ++
    concat (map (fun kv => sc_val (fst kv) ++ sc_val (snd kv)) l)
  | VStruct fs =>
    (fix fields last fs :=
       match fs with
       | [] => sc_stop
       | (id, v) :: fs' =>
         (match v with
          | VBool b => sc_field last (sc_bool b) id
          | _ => sc_field last (sc_type (vtype v)) id ++ sc_val v
          end) ++ fields id fs'
       end) 0 fs
  end.

(** The field sequence of a struct, as a function of its own. *)
Definition sc_fieldval (last : Z) (f : Z * tval) : bytes :=
  match snd f with
  | VBool b => sc_field last (sc_bool b) (fst f)
  | _ => sc_field last (sc_type (vtype (snd f))) (fst f) ++ sc_val (snd f)
  end.
Fixpoint sc_fields (last : Z) (fs : list (Z * tval)) : bytes :=
  match fs with
  | [] => sc_stop
  | f :: fs' => sc_fieldval last f ++ sc_fields (fst f) fs'
  end.
Lemma sc_val_struct : forall fs, sc_val (VStruct fs) = sc_fields 0 fs.
Proof.
  intros fs. cbn [sc_val]. generalize 0. induction fs as [|[id v] fs IH]; intro last; [reflexivity|].
  cbn [sc_fields fst]. rewrite <- IH. destruct v; reflexivity.
Qed.

Example sc_val_case :
  sc_val (VStruct [(1, VBool false); (3, VI32 (-300)); (200, VList BOOL [VBool true; VBool false])]) =
  [18; 37; 215; 4; 9; 144; 3; 33; 1; 2; 0].
Proof. reflexivity. Qed.

(** ** What TCompactProtocol can read back *)

(** Nesting depth counting structs only. *)
Fixpoint sdepth (v : tval) : nat :=
  match v with
  | VList _ l | VSet _ l => max_list (map sdepth l)
  | VMap _ _ l => max_list (map (fun kv => Nat.max (sdepth (fst kv)) (sdepth (snd kv))) l)
  | VStruct fs => S (max_list (map (fun f => sdepth (snd f)) fs))
  | _ => O
  end.

(** No field of a struct in [v] is the boolean false. *)
Definition is_false (v : tval) : bool := match v with VBool false => true | _ => false end.
Fixpoint no_false_field (v : tval) : bool :=
  match v with
  | VList _ l | VSet _ l => forallb no_false_field l
  | VMap _ _ l => forallb (fun kv => no_false_field (fst kv) && no_false_field (snd kv)) l
  | VStruct fs => forallb (fun f => negb (is_false (snd f)) && no_false_field (snd f)) fs
  | _ => true
  end.

(** No map in [v] is empty (the encoding of an empty map has no types). *)
Fixpoint no_empty_map (v : tval) : bool :=
  match v with
  | VList _ l | VSet _ l => forallb no_empty_map l
  | VMap _ _ l => match l with [] => false | _ => true end &&
                  forallb (fun kv => no_empty_map (fst kv) && no_empty_map (snd kv)) l
  | VStruct fs => forallb (fun f => no_empty_map (snd f)) fs
  | _ => true
  end.

(** In every struct of [v], a field that follows one whose value has structs inside structs has
    an id that is not in delta form. *)
Fixpoint ids_apart (v : tval) : bool :=
  match v with
  | VList _ l | VSet _ l => forallb ids_apart l
  | VMap _ _ l => forallb (fun kv => ids_apart (fst kv) && ids_apart (snd kv)) l
  | VStruct fs =>
    (fix go flat last fs :=
       match fs with
       | [] => true
       | (id, v) :: fs' =>
         (flat || negb (short last id)) && ids_apart v && go (sdepth v <=? 1)%nat id fs'
       end) true 0 fs
  | _ => true
  end.
(** The struct case as a function of its own. *)
Fixpoint fields_apart (flat : bool) (last : Z) (fs : list (Z * tval)) : bool :=
  match fs with
  | [] => true
  | (id, v) :: fs' =>
    (flat || negb (short last id)) && ids_apart v && fields_apart (sdepth v <=? 1)%nat id fs'
  end.
Lemma ids_apart_struct : forall fs, ids_apart (VStruct fs) = fields_apart true 0 fs.
Proof.
  intros fs. cbn [ids_apart].
  match goal with |- ?g true 0 fs = _ => set (go := g) end.
  assert (E : forall fs flat last, go flat last fs = fields_apart flat last fs).
  { clear fs. induction fs as [|[id v] fs IH]; intros flat last; [reflexivity|].
    change (go flat last ((id, v) :: fs)) with
      ((flat || negb (short last id)) && ids_apart v && go (sdepth v <=? 1)%nat id fs).
    cbn [fields_apart]. rewrite IH. reflexivity. }
  apply E.
Qed.

(** Empty maps without their types. *)
Fixpoint untyped_empty (v : tval) : tval :=
  match v with
  | VList t l => VList t (map untyped_empty l)
  | VSet t l => VSet t (map untyped_empty l)
  | VMap k t [] => VMap STOP STOP []
  | VMap k t l => VMap k t (map (fun kv => (untyped_empty (fst kv), untyped_empty (snd kv))) l)
  | VStruct fs => VStruct (map (fun f => (fst f, untyped_empty (snd f))) fs)
  | v => v
  end.
