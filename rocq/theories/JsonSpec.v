(** The JSON grammar (RFC 8259), and the text of a value in TJSONProtocol's format. *)
From Coq Require Import ZArith List Bool Lia String Ascii.
From Verif Require Import Base Arith Values Strconv JsonText JsonTextProofs F64 GoVal Names Json.
Import ListNotations.
Local Open Scope list_scope.
Local Notation length := List.length.
Open Scope Z_scope.

(** ** The grammar *)
Definition digits (s : bytes) : Prop := s <> [] /\ Forall (fun c => 48 <= c <= 57) s.
(** int: 0, or digits without a leading 0 *)
Definition int_part (s : bytes) : Prop := s = [48] \/ (digits s /\ hd 0 s <> 48).
Definition frac_part (s : bytes) : Prop := s = [] \/ exists d, digits d /\ s = 46 :: d.
Definition exp_part (s : bytes) : Prop :=
  s = [] \/ exists e sg d, (e = 101 \/ e = 69) /\ (sg = [] \/ sg = [43] \/ sg = [45]) /\ digits d /\ s = e :: sg ++ d.
Definition number (s : bytes) : Prop :=
  exists m i f e, (m = [] \/ m = [45]) /\ int_part i /\ frac_part f /\ exp_part e /\ s = m ++ i ++ f ++ e.

Definition hexdig (c : Z) : Prop := 48 <= c <= 57 \/ 65 <= c <= 70 \/ 97 <= c <= 102.
Inductive jchars : bytes -> Prop :=
| jc_nil : jchars []
| jc_plain r s : scalar r -> 32 <= r -> r <> 34 -> r <> 92 -> jchars s -> jchars (utf8_encode r ++ s)
| jc_esc c s : In c [34; 92; 47; 98; 102; 110; 114; 116] -> jchars s -> jchars (92 :: c :: s)
| jc_u a b c d s : hexdig a -> hexdig b -> hexdig c -> hexdig d -> jchars s ->
    jchars (92 :: 117 :: a :: b :: c :: d :: s).
Definition jstring (s : bytes) : Prop := exists t, jchars t /\ s = [34] ++ t ++ [34].

Definition white (s : bytes) : Prop := Forall (fun c => c = 32 \/ c = 9 \/ c = 10 \/ c = 13) s.
(** A separator or bracket with white space around it. *)
Definition around (c : Z) (s : bytes) : Prop := exists a b, white a /\ white b /\ s = a ++ [c] ++ b.

Inductive json : bytes -> Prop :=
| json_true : json (lit "true")
| json_false : json (lit "false")
| json_null : json (lit "null")
| json_number s : number s -> json s
| json_string s : jstring s -> json s
| json_array o m c : around 91 o -> around 93 c -> elements m -> json (o ++ m ++ c)
| json_empty_array o c : around 91 o -> around 93 c -> json (o ++ c)
| json_object o m c : around 123 o -> around 125 c -> members m -> json (o ++ m ++ c)
| json_empty_object o c : around 123 o -> around 125 c -> json (o ++ c)
with elements : bytes -> Prop :=
| el_one v : json v -> elements v
| el_more v k m : json v -> around 44 k -> elements m -> elements (v ++ k ++ m)
with members : bytes -> Prop :=
| mb_one n k v : jstring n -> around 58 k -> json v -> members (n ++ k ++ v)
| mb_more n k v k2 m : jstring n -> around 58 k -> json v -> around 44 k2 -> members m ->
    members (n ++ k ++ v ++ k2 ++ m).

(** ** The text of a value *)
Definition double_text (J : jenv) (d : Z) : bytes :=
  if f64_is_nan d then quoted (lit "NaN")
  else if d =? INF then quoted (lit "Infinity")
  else if d =? NEG_INF then quoted (lit "-Infinity")
  else x_fmt64 (j_ext J) d.
(** Each text behind a comma. *)
Definition commas (l : list bytes) : bytes := flat_map (fun t => 44 :: t) l.
Definition type_text (t : Z) : bytes := quoted (TypeIdToString t).
(** [{"id":{"type":v}, ...}], [[type,size,v,...]], [["keytype","valuetype",size,k,v,...]] *)
Fixpoint vtext (J : jenv) (v : tval) : bytes :=
  match v with
  | VBool b => lit (if b then "true" else "false")
  | VByte z | VI16 z | VI32 z | VI64 z => FormatInt z
  | VDouble d => double_text J d
  | VStr s => json_quote (j_style J) s
  | VList et l | VSet et l =>
    [91] ++ FormatInt et ++ [44] ++ FormatInt (Z.of_nat (length l)) ++ commas (map (vtext J) l) ++ [93]
  | VMap kt vt l =>
    [91] ++ type_text kt ++ [44] ++ type_text vt ++ [44] ++ FormatInt (Z.of_nat (length l)) ++
    flat_map (fun kv => 44 :: vtext J (fst kv) ++ 44 :: vtext J (snd kv)) l ++ [93]
  | VStruct fs =>
    [123] ++
    tl (flat_map (fun f => [44] ++ quoted (FormatInt (fst f)) ++ [58; 123] ++ type_text (vtype (snd f)) ++
                           [58] ++ vtext J (snd f) ++ [125]) fs) ++
    [125]
  end.
