(** Properties of Numeric and TMessage: C88, C89. *)
From Coq Require Import ZArith List Bool Lia String.
From Coq Require Import ZifyBool SpecFloat.
From Verif Require Import Base Arith F64 F64Exact Strconv TField GoVal Names PropNames Json Numeric CompareProofs TFieldProofs CoerceProofs Compare PropGen.
Import ListNotations.
Open Scope Z_scope.
Open Scope list_scope.
Local Notation length := List.length.

(** ** C88 *)

(** A Numeric made from an int64 gives it back as an integer of any width that holds it, and up to
    53 bits as a float64. *)
Theorem C88_integer : forall z, in_s 64 z -> let n := NewNumericFromI64 z in
  Int64 n = z /\ Int n = z /\ (in_s 32 z -> Int32 n = z) /\ (in_s 16 z -> Int16 n = z) /\ (in_u 8 z -> Byte n = z) /\
  (Z.abs z < 2 ^ 53 -> is_int (f64_of_bits (Float64 n)) z) /\ isNull n = false.
Proof.
  intros z Hz n. split; [reflexivity|]. split; [reflexivity|]. split; [|split; [|split; [|split; [|reflexivity]]]]; intros R.
  - apply wraps_id; [lia|exact R].
  - apply wraps_id; [lia|exact R].
  - apply Z.mod_small. exact R.
  - apply f64_of_Z_exact, R.
Qed.
Print Assumptions C88_integer.

(** Beyond 53 bits the float64 can be another number. *)
Theorem C88_integer_double_refuted : exists z, in_s 64 z /\ ~ is_int (f64_of_bits (Float64 (NewNumericFromI64 z))) z.
Proof.
  exists (2 ^ 53 + 1). split; [unfold in_s; lia|]. intros H.
  assert (E : f64_of_bits (Float64 (NewNumericFromI64 (2 ^ 53 + 1))) = S754_finite false 4503599627370496 1) by (vm_compute; reflexivity).
  rewrite E in H. inversion H as [|? ? ? ? K]; subst. vm_compute in K. discriminate.
Qed.
Print Assumptions C88_integer_double_refuted.

Lemma utf8_first : forall r, exists c s, utf8_encode r = c :: s /\ (0 <= r < 128 /\ c = r /\ s = [] \/ 192 <= c).
Proof.
  intros r. unfold utf8_encode.
  set (r' := if (r <? 0) || (0x10FFFF <? r) || ((0xD800 <=? r) && (r <=? 0xDFFF)) then 0xFFFD else r).
  assert (R : 0 <= r' <= 0x10FFFF) by (unfold r'; destruct (_ || _) eqn:E; lia).
  assert (R' : r' < 128 -> r' = r) by (unfold r'; destruct (_ || _) eqn:E; lia).
  clearbody r'. cbv zeta. destruct (r' <? 128) eqn:E1.
  - exists r', []. split; [reflexivity|]. left. split; [|split]; [lia|lia|reflexivity].
  - assert (0 <= r' / 64 /\ 0 <= r' / 4096 /\ 0 <= r' / 262144) as (A & B & C) by (repeat split; apply Z.div_pos; lia).
    destruct (r' <? 2048); [|destruct (r' <? 65536)]; do 2 eexists; (split; [reflexivity|]); right; lia.
Qed.

(** Its text is never the number, *)
Theorem C88_text_refuted : forall z, in_s 64 z -> Num_String (NewNumericFromI64 z) <> FormatInt z.
Proof.
  intros z Hz. unfold NewNumericFromI64, Num_String. cbn [nu_s]. destruct (utf8_first z) as (c & s & -> & H).
  intros E. unfold FormatInt in E. destruct (z <? 0) eqn:N.
  - injection E as -> _. lia.
  - destruct (format_uint_spec z) as (A & B & C); [unfold in_s in Hz; split; [lia|]; eapply Z.lt_trans; [apply Hz|reflexivity]|].
    rewrite <- E in B, C. pose proof (Forall_inv B) as D. cbn beta in D. destruct H as [(R & -> & ->)|H]; [|lia].
    cbn [horner] in C. lia.
Qed.
Print Assumptions C88_text_refuted.
(** and read again it is another number, unless it is 0. *)
Theorem C88_text_again_refuted : forall x z, in_s 64 z -> z <> 0 ->
  Int64 (NewNumericFromString x (Num_String (NewNumericFromI64 z))) <> z.
Proof.
  intros x z Hz Nz. unfold NewNumericFromI64, Num_String. cbn [nu_s]. destruct (utf8_first z) as (c & s & -> & H).
  unfold NewNumericFromString.
  assert (NB : forall d t, d < 128 -> (d = z -> t <> []) -> beq (c :: s) (d :: t) = false).
  { intros d t Hd Ht. unfold beq. destruct (list_eq_dec _ _ _) as [E|]; [|reflexivity]. injection E as -> ->.
    destruct H as [(_ & -> & ->)|H]; [|lia]. destruct (Ht eq_refl eq_refl). }
  assert (B1 : beq (c :: s) (nu_s INFINITY) = false) by (apply NB; [vm_compute; reflexivity|discriminate]).
  assert (B2 : beq (c :: s) (nu_s NEGATIVE_INFINITY) = false) by (apply NB; [vm_compute; reflexivity|discriminate]).
  assert (B3 : beq (c :: s) (nu_s NAN) = false) by (apply NB; [vm_compute; reflexivity|discriminate]).
  rewrite B1, B2, B3. cbn [Int64 nu_i]. unfold ParseInt.
  destruct H as [(R & -> & ->)|H].
  - destruct ((z =? 43) || (z =? 45)) eqn:Sg; [cbn; lia|]. cbn [parse_uint parse_uint_loop]. unfold is_digit.
    destruct ((48 <=? z) && (z <=? 57)) eqn:D; [|cbn; lia].
    replace (2 ^ 64 <=? 0 * 10 + (z - 48)) with false by lia. replace (z =? 45) with false by lia.
    cbn [negb andb]. replace (2 ^ (64 - 1) <=? 0 * 10 + (z - 48)) with false by lia. cbn [fst]. lia.
  - replace ((c =? 43) || (c =? 45)) with false by lia. cbn [parse_uint parse_uint_loop]. unfold is_digit.
    replace ((48 <=? c) && (c <=? 57)) with false by lia. cbn [fst]. lia.
Qed.
Print Assumptions C88_text_again_refuted.

(** A Numeric made from the text of an integer gives the integer and the text, and its float64 is
    what strconv.ParseFloat makes of the text. *)
Theorem C88_string : forall x s z, decimal s z -> in_s 64 z -> let n := NewNumericFromString x s in
  Int64 n = z /\ Num_String n = s /\ Float64 n = fst (x_parse_float x s) /\ isNull n = false /\
  NumericFromJSON x s false = n.
Proof.
  intros x s z D R n. assert (P : ParseInt s 64 = (z, None)) by (apply ParseInt_spec; [lia|auto]).
  assert (NB : forall l, ParseInt l 64 = (0, Some ErrSyntax) -> beq s l = false).
  { intros l Hl. unfold beq. destruct (list_eq_dec _ _ _) as [->|]; [|reflexivity]. congruence. }
  unfold n, NewNumericFromString, NumericFromJSON. cbn [nu_s INFINITY NEGATIVE_INFINITY NAN].
  rewrite !NB by reflexivity. rewrite P. destruct s; [discriminate|]. repeat split; reflexivity.
Qed.
Print Assumptions C88_string.

(** A text that is no integer gives 0, no null and no error. *)
Theorem C88_string_refuted : forall x s, s <> [] -> snd (ParseInt s 64) = Some ErrSyntax ->
  Int64 (NewNumericFromString x s) = 0 /\ isNull (NewNumericFromString x s) = false.
Proof.
  intros x s Ns E. unfold NewNumericFromString.
  destruct (beq s (nu_s INFINITY)); [split; reflexivity|]. destruct (beq s (nu_s NEGATIVE_INFINITY)); [split; reflexivity|].
  destruct (beq s (nu_s NAN)); [split; reflexivity|]. destruct s as [|c s]; [congruence|]. split; [|reflexivity].
  cbn [Int64 nu_i]. revert E. unfold ParseInt. destruct (parse_uint _) as [u [[|]|]].
  - reflexivity.
  - repeat match goal with |- context [if ?b then _ else _] => destruct b end; discriminate.
  - repeat match goal with |- context [if ?b then _ else _] => destruct b end; discriminate.
Qed.
Print Assumptions C88_string_refuted.

(** A Numeric made from a float64 gives it back (a NaN as a NaN), and the integer it is. *)
Theorem C88_double : forall x fmt d, in_u 64 d -> let n := NewNumericFromDouble x fmt d in
  isNull n = false /\
  (f64_is_nan d = true -> f64_is_nan (Float64 n) = true /\ Num_String n = lit "NaN") /\
  (f64_is_nan d = false -> Float64 n = d) /\
  (forall z, sf_trunc (f64_of_bits d) = Some z -> in_s 64 z -> Int64 n = z) /\
  NumericFromJSON x (Num_String INFINITY) false = INFINITY /\ NewNumericFromString x (Num_String NAN) = NAN.
Proof.
  intros x fmt d Hd n. unfold n, NewNumericFromDouble.
  assert (NI : f64_is_nan INF = false) by (vm_compute; reflexivity).
  assert (NN : f64_is_nan NEG_INF = false) by (vm_compute; reflexivity).
  destruct (Z.eqb_spec d INF) as [->|N1]; [|destruct (Z.eqb_spec d NEG_INF) as [->|N2]; [|destruct (f64_is_nan d) eqn:Na]].
  - split; [reflexivity|]. split; [rewrite NI; discriminate|]. split; [reflexivity|]. split; [|split; reflexivity].
    intros z T. vm_compute in T. discriminate.
  - split; [reflexivity|]. split; [rewrite NN; discriminate|]. split; [reflexivity|]. split; [|split; reflexivity].
    intros z T. vm_compute in T. discriminate.
  - split; [reflexivity|]. split; [intros _; split; vm_compute; reflexivity|]. split; [discriminate|]. split; [|split; reflexivity].
    intros z T. exfalso. revert T Na. unfold f64_is_nan, f64_of_bits, sf_of_bits, fl_exp, fl_mag, fl_man. change (11 + 52) with 63.
    change (2 ^ 11 - 1) with 2047. destruct (f64_range d Hd) as (M & _). intros T Na. apply Z.ltb_lt in Na.
    assert (Q : d mod 2 ^ 63 / 2 ^ 52 = 2047).
    { symmetry. apply Z.div_unique with (d mod 2 ^ 63 - 2047 * 2 ^ 52); [left; change (2 ^ 63) with (2048 * 2 ^ 52) in M |- *; lia|ring]. }
    rewrite Q in T. cbn [Z.eqb Pos.eqb] in T. destruct (d mod 2 ^ 52 =? 0); discriminate.
  - split; [reflexivity|]. split; [discriminate|]. split; [reflexivity|]. split; [|split; reflexivity].
    intros z T R. cbn [Int64 nu_i]. unfold i64_of_f64. rewrite T. unfold in_s in R. change (64 - 1) with 63 in R.
    replace ((- 2 ^ 63 <=? z) && (z <? 2 ^ 63)) with true by lia. reflexivity.
Qed.
Print Assumptions C88_double.

(** A JSON null is null, zero and the empty text whatever stands beside it, and so is the empty text;
    nothing else is null. *)
Theorem C88_null : forall x s, let n := NumericFromJSON x s true in
  isNull n = true /\ Int64 n = 0 /\ Float64 n = 0 /\ Num_String n = [] /\ isNull (NumericFromJSON x s false) = false /\
  (isNull (NewNumericFromString x s) = true <-> s = []).
Proof.
  intros x s. cbn zeta. split; [reflexivity|split; [reflexivity|split; [reflexivity|split; [reflexivity|]]]]. split.
  - unfold NumericFromJSON. repeat match goal with |- context [if beq ?a ?b then _ else _] => destruct (beq a b) end; reflexivity.
  - unfold NewNumericFromString, beq.
    repeat match goal with |- context [list_eq_dec Z.eq_dec s ?l] => destruct (list_eq_dec Z.eq_dec s l) as [->|] end;
      try (split; discriminate).
    cbn [isNull nu_null]. destruct s; split; congruence.
Qed.
Print Assumptions C88_null.

(** What the JSON protocols read through a Numeric: the integer of a decimal text, and the special values of their three
    names with the right sign. *)
Theorem C88_json : forall J s, let n := NumericFromJSON (j_ext J) s false in
  (Int64 n, Float64 n) = NewNumericFromJSONString J s /\
  (forall z, decimal s z -> in_s 64 z -> fst (NewNumericFromJSONString J s) = z) /\
  (s = lit "Infinity" -> f64_of_bits (snd (NewNumericFromJSONString J s)) = S754_infinity false) /\
  (s = lit "-Infinity" -> f64_of_bits (snd (NewNumericFromJSONString J s)) = S754_infinity true) /\
  (s = lit "NaN" -> f64_of_bits (snd (NewNumericFromJSONString J s)) = S754_nan).
Proof.
  intros J s n. split.
  { unfold n, NumericFromJSON, NewNumericFromJSONString.
    repeat match goal with |- context [if beq ?a ?b then _ else _] => destruct (beq a b) end; reflexivity. }
  split; [|split; [|split]]; [|intros ->; vm_compute; reflexivity|intros ->; vm_compute; reflexivity|intros ->; vm_compute; reflexivity].
  intros z D R. pose proof (C88_string (j_ext J) s z D R) as Q. cbn zeta in Q. revert Q.
  unfold NewNumericFromString, NewNumericFromJSONString. cbn [nu_s INFINITY NEGATIVE_INFINITY NAN].
  repeat match goal with |- context [if beq ?a ?b then _ else _] => destruct (beq a b) end; cbn; intro Q; apply Q.
Qed.
Print Assumptions C88_json.
Example C88_json_case : forall J, decimal (lit "-12") (-12) /\ NewNumericFromJSONString J (lit "-Infinity") = (0, NEG_INF) /\
  fst (NewNumericFromJSONString J (lit "-12")) = -12.
Proof. intro J. split; [exact (dec_minus [49; 50] ltac:(discriminate) ltac:(repeat constructor; lia))|split; reflexivity]. Qed.

Example C88_ex : in_s 64 (-7) /\ Z.abs (-7) < 2 ^ 53 /\ decimal (lit "-7") (-7) /\
  f64_of_bits (Float64 (NewNumericFromI64 (-7))) = S754_finite true 7881299347898368 (-50) /\
  Num_String (NewNumericFromI64 65) = lit "A" /\
  Int64 (NewNumericFromString ext0 (lit "-7")) = -7 /\ Int64 (NewNumericFromString ext0 (lit "7x")) = 0 /\
  in_u 64 0x400c000000000000 /\ sf_trunc (f64_of_bits 0x400c000000000000) = Some 3 /\
  Int64 (NewNumericFromDouble ext0 (fun _ => []) 0x400c000000000000) = 3.
Proof.
  split; [unfold in_s; lia|]. split; [lia|]. split.
  { assert (P : ParseInt (lit "-7") 64 = (-7, None)) by (vm_compute; reflexivity). apply ParseInt_spec in P; [apply P|lia]. }
  repeat split; vm_compute; congruence.
Qed.

(** ** C89 *)

(** Two message headers are equal exactly if name, type and sequence id are. *)
Theorem C89_equals : forall p q, msg_Equals p q = true <-> p = q.
Proof.
  intros [n t s] [n' t' s']. unfold msg_Equals. cbn [tm_name tm_type tm_seq]. split.
  - intros H. apply andb_true_iff in H as [H H3]. apply andb_true_iff in H as [H1 H2].
    apply str_eq_iff in H1. f_equal; [exact H1|lia|lia].
  - intros [= -> -> ->]. rewrite str_eq_refl. lia.
Qed.
Print Assumptions C89_equals.

(** Their texts do not tell them apart: those of negative sequence ids are all the same. *)
Theorem C89_string_refuted : forall name t s s', s < 0 -> s' < 0 ->
  msg_String (MkTMessage name t s) = msg_String (MkTMessage name t s').
Proof.
  intros name t s s' H H'. unfold msg_String. cbn [tm_name tm_type tm_seq].
  assert (E : forall r, r < 0 -> utf8_encode r = [0xEF; 0xBF; 0xBD]).
  { intros r Hr. unfold utf8_encode. replace (r <? 0) with true by lia. reflexivity. }
  rewrite (E s H), (E s' H'). reflexivity.
Qed.
Print Assumptions C89_string_refuted.

(** The text of every message has a control character in it: its type, as a character. *)
Theorem C89_type_refuted : forall name t s, In t [CALL; REPLY; EXCEPTION; ONEWAY] ->
  exists c, In c (msg_String (MkTMessage name t s)) /\ c = t /\ c < 32.
Proof.
  intros name t s H. exists t. unfold msg_String. cbn [tm_name tm_type tm_seq].
  assert (E : utf8_encode t = [t]) by (destruct H as [<-|[<-|[<-|[<-|[]]]]]; reflexivity).
  rewrite E. split; [|split; [reflexivity|destruct H as [<-|[<-|[<-|[<-|[]]]]]; reflexivity]].
  apply in_or_app. right. apply in_or_app. right. apply in_or_app. right. left. reflexivity.
Qed.
Print Assumptions C89_type_refuted.

Example C89_ex : msg_Equals (MkTMessage (lit "ping") 1 7) (MkTMessage (lit "ping") 1 7) = true /\
  msg_Equals (MkTMessage (lit "ping") 1 7) (MkTMessage (lit "ping") 1 8) = false /\
  msg_String (MkTMessage (lit "a") 1 (-1)) = msg_String (MkTMessage (lit "a") 1 (-2)).
Proof. repeat split; vm_compute; reflexivity. Qed.
