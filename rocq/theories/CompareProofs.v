(** Comparison of scalars: specification and proofs. *)
From Coq Require Import ZArith List Bool Lia.
From Coq Require Import ZifyBool ZifyNat SpecFloat.
From Verif Require Import Base Arith F64 Strconv TField GoVal Compare.
Import ListNotations.
Open Scope Z_scope.
Ltac Zify.zify_post_hook ::= Z.div_mod_to_equations.

(** ** Specification *)

(** The values of each scalar type: the Go type CoerceData produces for it, in range.
    NaN is not a value of an ordered type. *)
Inductive native : Z -> any -> Prop :=
| nat_bool b : native BOOL (ABool b)
| nat_byte z : in_u 8 z -> native BYTE (AByte z)
| nat_i16 z : in_s 16 z -> native I16 (AInt16 z)
| nat_i32 z : in_s 32 z -> native I32 (AInt32 z)
| nat_i64 z : in_s 64 z -> native I64 (AInt64 z)
| nat_dbl b : in_u 64 b -> f64_of_bits b <> S754_nan -> native DOUBLE (AF64 b)
| nat_str p s : In p [STRING; UTF8; UTF16] -> is_bytes s -> native p (AStr s)
| nat_bin s : is_bytes s -> native BINARY (ABytes s).

(** Lexicographic order. *)
Inductive lex_lt : bytes -> bytes -> Prop :=
| lex_nil y b : lex_lt [] (y :: b)
| lex_hd x y a b : x < y -> lex_lt (x :: a) (y :: b)
| lex_tl x a b : lex_lt a b -> lex_lt (x :: a) (x :: b).

(** The order on scalars: false < true, numbers by value (doubles by the IEEE comparison of
    the numbers they denote), strings and binaries lexicographically. *)
Definition scalar_lt (i j : any) : Prop :=
  match i, j with
  | ABool a, ABool b => a = false /\ b = true
  | AByte a, AByte b | AInt16 a, AInt16 b | AInt32 a, AInt32 b | AInt64 a, AInt64 b => a < b
  | AF64 a, AF64 b => SFcompare (f64_of_bits a) (f64_of_bits b) = Some Lt
  | AStr a, AStr b | ABytes a, ABytes b => lex_lt a b
  | _, _ => False
  end.
(** Equality: of the value itself, except that +0 and -0 are the same number. *)
Definition scalar_eq (i j : any) : Prop :=
  match i, j with
  | AF64 a, AF64 b => SFcompare (f64_of_bits a) (f64_of_bits b) = Some Eq
  | _, _ => i = j
  end.

(** ** Proofs *)
Lemma nan_bits : forall b, in_u 64 b -> (f64_of_bits b <> S754_nan <-> f64_is_nan b = false).
Proof.
  intros b Hb. split; intros H.
  - destruct (f64_is_nan b) eqn:E; [|reflexivity]. exfalso. apply H. clear H.
    unfold f64_is_nan in E. unfold f64_of_bits, sf_of_bits, fl_sign, fl_exp, fl_man, fl_mag.
    change (11 + 52) with 63. change (2 ^ 11 - 1) with 2047.
    assert (Em : b mod 2 ^ 52 = (b mod 2 ^ 63) mod 2 ^ 52).
    { apply Znumtheory.Zmod_div_mod; [lia|lia|]. exists (2 ^ 11). reflexivity. }
    rewrite Em. destruct (f64_range b Hb) as [Hm _]. set (m := b mod 2 ^ 63) in *. clearbody m.
    change (2 ^ 52) with 4503599627370496 in *. change (2 ^ 63) with 9223372036854775808 in *.
    replace (m / 4503599627370496 =? 2047) with true by lia.
    replace (m mod 4503599627370496 =? 0) with false by lia. reflexivity.
  - intros C. pose proof (dec_ok b Hb H) as D. rewrite C in D. inversion D.
Qed.

Definition key (v : any) : bytes :=
  match v with
  | ABool b => [if b then 1 else 0]
  | AByte z | AInt16 z | AInt32 z | AInt64 z => [z]
  | AF64 b => [f64_key b]
  | AStr s | ABytes s => s
  | _ => []
  end.

Lemma CompareString_single : forall a b, CompareString [a] [b] = CompareInt a b.
Proof.
  intros. unfold CompareString, CompareInt. cbn [str_lt].
  rewrite !andb_false_r, !orb_false_r. reflexivity.
Qed.

Lemma cmp3_int : forall a b, cmp3 (a =? b) (a <? b) = (CompareInt a b, true).
Proof.
  intros. unfold cmp3, CompareInt.
  destruct (Z.eqb_spec a b), (Z.ltb_spec a b), (Z.ltb_spec b a); try lia; reflexivity.
Qed.
Lemma cmp3_str : forall a b, cmp3 (str_eq a b) (str_lt a b) = (CompareString a b, true).
Proof.
  intros. unfold cmp3, CompareString.
  destruct (str_eq a b) eqn:E.
  - apply str_eq_iff in E. subst. rewrite str_lt_irrefl. reflexivity.
  - destruct (str_lt a b) eqn:E1; [rewrite (str_lt_asym _ _ E1); reflexivity|].
    destruct (str_lt b a) eqn:E2; [reflexivity|].
    destruct (str_lt_tri a b) as [->|[H|H]]; try congruence. rewrite str_eq_refl in E. discriminate.
Qed.

(** CoerceData leaves a native value alone. *)
Lemma coerce_native : forall x p v, native p v -> CoerceData x p v = Ok (v, true).
Proof.
  intros x p v H. destruct H; try reflexivity.
  - cbn. unfold wrapu. rewrite Z.mod_small by (unfold in_u in H; lia). reflexivity.
  - cbn. unfold in_s in H. unfold wraps.
    change (2 ^ (16 - 1)) with 32768 in *. change (2 ^ 16) with 65536 in *.
    destruct (Z.ltb_spec (z mod 65536) 32768); do 3 f_equal; lia.
  - cbn. unfold in_s in H. unfold wraps.
    change (2 ^ (32 - 1)) with 2147483648 in *. change (2 ^ 32) with 4294967296 in *.
    destruct (Z.ltb_spec (z mod 4294967296) 2147483648); do 3 f_equal; lia.
  - cbn. unfold in_s in H. unfold wraps.
    change (2 ^ (64 - 1)) with 9223372036854775808 in *. change (2 ^ 64) with 18446744073709551616 in *.
    destruct (Z.ltb_spec (z mod 18446744073709551616) 9223372036854775808); do 3 f_equal; lia.
  - cbn [In] in H. destruct H as [<-|[<-|[<-|[]]]]; reflexivity.
Qed.

Lemma native_not_nil : forall p v, native p v -> is_nil v = false.
Proof. intros p v H; destruct H; reflexivity. Qed.

Lemma eqb_CompareInt : forall a b, (a =? b) = (CompareInt a b =? 0).
Proof.
  intros. destruct (Z.eqb_spec a b).
  - subst. symmetry. apply Z.eqb_eq. apply CompareInt_0. reflexivity.
  - symmetry. apply Z.eqb_neq. rewrite CompareInt_0. auto.
Qed.

(** On native values Compare is the lexicographic comparison of keys. *)
Lemma Compare_native : forall x f p i j, native p i -> native p j ->
  Compare x (S f) p i j = Ok (CompareString (key i) (key j), true).
Proof.
  intros x f p i j Hi Hj. cbn [Compare].
  pose proof (coerce_native x p i Hi) as Ci. pose proof (coerce_native x p j Hj) as Cj.
  pose proof (native_not_nil _ _ Hi) as Ni. pose proof (native_not_nil _ _ Hj) as Nj.
  rewrite Ni, Nj, Ci, Cj. cbn [obind negb andb]. rewrite Ni, Nj.
  enough (exists q, quick_eq p i j = Ok q /\ (q = true -> CompareString (key i) (key j) = 0) /\
    (q = false -> compare_coerced x (Compare x f) p i j = Ok (CompareString (key i) (key j), true))) as (q & Q1 & Q2 & Q3).
  { rewrite Q1. cbn [obind]. destruct q; [rewrite Q2 by reflexivity; reflexivity|]. apply Q3. reflexivity. }
  assert (Num : forall a b, (a =? b) = true -> CompareString [a] [b] = 0).
  { intros a b E. rewrite CompareString_single. apply CompareInt_0. lia. }
  destruct Hi; inversion Hj; subst;
    try (match goal with H : In _ [STRING; UTF8; UTF16] |- _ =>
           solve [cbn in H; destruct H as [C|[C|[C|[]]]]; discriminate C] end).
  - exists (eqb b b0). split; [reflexivity|]. destruct b, b0; split; intros; (reflexivity || discriminate).
  - exists (z =? z0). split; [reflexivity|]. split; intros E; [apply Num, E|].
    cbn. rewrite cmp3_int, CompareString_single. reflexivity.
  - exists (z =? z0). split; [reflexivity|]. split; intros E; [apply Num, E|].
    cbn. rewrite cmp3_int, CompareString_single. reflexivity.
  - exists (z =? z0). split; [reflexivity|]. split; intros E; [apply Num, E|].
    cbn. rewrite cmp3_int, CompareString_single. reflexivity.
  - exists (z =? z0). split; [reflexivity|]. split; intros E; [apply Num, E|].
    cbn. rewrite cmp3_int, CompareString_single. reflexivity.
  - assert (N1 : f64_is_nan b = false) by (apply nan_bits; auto).
    assert (N2 : f64_is_nan b0 = false) by (apply nan_bits; auto).
    exists (f64_eq b b0). split; [reflexivity|].
    unfold f64_eq. rewrite N1, N2. cbn [negb andb]. split; intros E; [apply Num, E|].
    change (compare_coerced x (Compare x f) DOUBLE (AF64 b) (AF64 b0)) with
      (Ok (cmp3 (f64_eq b b0) (f64_lt b b0))).
    unfold f64_eq, f64_lt. rewrite N1, N2. cbn [negb andb key].
    rewrite cmp3_int, CompareString_single. reflexivity.
  - exists (str_eq s s0). split.
    { unfold quick_eq. replace (p =? BINARY) with false; [reflexivity|].
      cbn in H. destruct H as [<-|[<-|[<-|[]]]]; reflexivity. }
    split; intros E; [apply CompareString_0, str_eq_iff, E|].
    cbn in H. destruct H as [<-|[<-|[<-|[]]]]; cbn; rewrite cmp3_str; reflexivity.
  - exists false. split; [reflexivity|]. split; [discriminate|]. intros _.
    cbn. rewrite bytes_Compare_String. reflexivity.
Qed.

(** ** The keys realise the specified order *)
Lemma lex_lt_iff : forall a b, str_lt a b = true <-> lex_lt a b.
Proof.
  induction a as [|x a IH]; destruct b as [|y b]; cbn [str_lt]; split; intros H;
    try discriminate; try (inversion H; fail); try reflexivity; try (apply lex_nil).
  - apply orb_prop in H as [H|H]; [apply lex_hd; lia|].
    apply andb_prop in H as [H1 H2]. replace y with x by lia. apply lex_tl. apply IH, H2.
  - apply orb_true_iff. inversion H; subst; [left; lia|right].
    rewrite Z.eqb_refl. apply IH. assumption.
Qed.

Lemma key_lt : forall p i j, native p i -> native p j ->
  (str_lt (key i) (key j) = true <-> scalar_lt i j).
Proof.
  assert (One : forall a b, str_lt [a] [b] = true <-> a < b).
  { intros. cbn [str_lt]. rewrite andb_false_r, orb_false_r. lia. }
  intros p i j Hi Hj. destruct Hi; inversion Hj; subst; cbn [key scalar_lt];
    try (match goal with H : In _ [STRING; UTF8; UTF16] |- _ =>
           solve [cbn in H; destruct H as [C|[C|[C|[]]]]; discriminate C] end);
    try apply One; try apply lex_lt_iff.
  - rewrite One. destruct b, b0; intuition (try lia; try discriminate).
  - rewrite One. rewrite SFcompare_key by (try assumption; apply nan_bits; assumption).
    destruct (Z.compare_spec (f64_key b) (f64_key b0)); split; intros; try discriminate; try lia; reflexivity.
Qed.

Lemma key_eq : forall p i j, native p i -> native p j -> (key i = key j <-> scalar_eq i j).
Proof.
  intros p i j Hi Hj. destruct Hi; inversion Hj; subst; cbn [key scalar_eq];
    try (match goal with H : In _ [STRING; UTF8; UTF16] |- _ =>
           solve [cbn in H; destruct H as [C|[C|[C|[]]]]; discriminate C] end);
    try (split; intros E; [injection E as E; subst; reflexivity|injection E as E; subst; reflexivity]).
  - destruct b, b0; split; intros; (reflexivity || discriminate).
  - rewrite SFcompare_key by (try assumption; apply nan_bits; assumption).
    destruct (Z.compare_spec (f64_key b) (f64_key b0)) as [E|E|E]; split; intros E'; try discriminate.
    + reflexivity.
    + rewrite E. reflexivity.
    + injection E' as E'. lia.
    + injection E' as E'. lia.
  - split; [intros ->; reflexivity|intros E; injection E; auto].
  - split; [intros ->; reflexivity|intros E; injection E; auto].
Qed.

Lemma CompareString_cases : forall a b,
  (CompareString a b = -1 <-> str_lt a b = true) /\ (CompareString a b = 1 <-> str_lt b a = true) /\
  (CompareString a b = 0 <-> a = b) /\
  (CompareString a b = -1 \/ CompareString a b = 0 \/ CompareString a b = 1) /\
  CompareString b a = - CompareString a b.
Proof.
  intros a b. pose proof (CompareString_0 a b) as Z0. unfold CompareString in *.
  destruct (str_lt a b) eqn:E1; [rewrite (str_lt_asym _ _ E1) in *|destruct (str_lt b a) eqn:E2];
    repeat split; intros; try discriminate; try lia; auto; try tauto.
Qed.

Lemma CompareString_trans : forall a b c,
  CompareString a b <= 0 -> CompareString b c <= 0 -> CompareString a c <= 0.
Proof.
  intros a b c H1 H2. apply Z.nlt_ge. intros H3.
  destruct (CompareString_cases a b) as (A1 & A2 & A3 & A4 & _).
  destruct (CompareString_cases b c) as (B1 & B2 & B3 & B4 & _).
  destruct (CompareString_cases a c) as (C1 & C2 & C3 & C4 & _).
  assert (L : str_lt c a = true) by (apply C2; lia).
  destruct A4 as [A4|[A4|A4]]; [apply A1 in A4|apply A3 in A4; subst|lia];
  (destruct B4 as [B4|[B4|B4]]; [apply B1 in B4|apply B3 in B4; subst|lia]).
  - pose proof (str_lt_trans _ _ _ A4 B4) as T. rewrite (str_lt_asym _ _ T) in L. discriminate.
  - rewrite (str_lt_asym _ _ A4) in L. discriminate.
  - rewrite (str_lt_asym _ _ B4) in L. discriminate.
  - rewrite str_lt_irrefl in L. discriminate.
Qed.

(** Main statement: three-valued result that decides the specified order. *)
Theorem Compare_scalar_spec : forall x f p i j, native p i -> native p j ->
  exists c, Compare x (S f) p i j = Ok (c, true) /\
    ((c = -1 /\ scalar_lt i j) \/ (c = 0 /\ scalar_eq i j) \/ (c = 1 /\ scalar_lt j i)).
Proof.
  intros x f p i j Hi Hj. exists (CompareString (key i) (key j)).
  split; [apply Compare_native; auto|].
  rewrite <- (key_lt p i j), <- (key_lt p j i), <- (key_eq p i j) by auto.
  destruct (CompareString_cases (key i) (key j)) as (A1 & A2 & A3 & A4 & _).
  destruct A4 as [A|[A|A]]; rewrite A in *; intuition.
Qed.

(** The specified order is a strict total order (up to scalar_eq). *)
Theorem scalar_order : forall p i j k, native p i -> native p j -> native p k ->
  ~ scalar_lt i i /\
  (scalar_lt i j -> scalar_lt j k -> scalar_lt i k) /\
  (scalar_lt i j \/ scalar_eq i j \/ scalar_lt j i) /\
  (scalar_lt i j -> ~ scalar_eq i j) /\
  (scalar_eq i i) /\ (scalar_eq i j -> scalar_eq j i) /\
  (scalar_eq i j -> scalar_eq j k -> scalar_eq i k) /\
  (scalar_eq i j -> scalar_lt j k -> scalar_lt i k) /\
  (scalar_lt i j -> scalar_eq j k -> scalar_lt i k).
Proof.
  intros p i j k Hi Hj Hk.
  rewrite <- (key_lt p i i), <- (key_lt p i j), <- (key_lt p j k), <- (key_lt p i k),
    <- (key_lt p j i), <- (key_eq p i i), <- (key_eq p i j), <- (key_eq p j k), <- (key_eq p i k),
    <- (key_eq p j i) by auto.
  rewrite str_lt_irrefl. repeat split; intros; try congruence.
  - eapply str_lt_trans; eauto.
  - destruct (str_lt_tri (key i) (key j)) as [H|[H|H]]; auto.
  - intros E. rewrite E, str_lt_irrefl in H. discriminate.
Qed.
