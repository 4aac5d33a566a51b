(** Facts about CoerceData and the type predicates. *)
From Coq Require Import ZArith List Bool Lia.
From Coq Require Import ZifyBool ZifyNat SpecFloat.
From Verif Require Import Base Arith F64 Strconv TField GoVal Compare CompareProofs TFieldProofs.
Import ListNotations.
Open Scope Z_scope.
Ltac Zify.zify_post_hook ::= Z.div_mod_to_equations.

(** The type ids the library defines. *)
Definition known_type (t : Z) : Prop :=
  In t [STOP; VOID; BOOL; BYTE; DOUBLE; I16; I32; I64; STRING; STRUCT; MAP; SET; LIST; UTF8; UTF16; BINARY].

Lemma known_bool : forall t,
  known_type t \/ (IsEmptyType t = false /\ IsBaseType t = false /\ IsStruct t = false /\ IsContainer t = false /\
    forall x d, CoerceData x t d = Panic).
Proof.
  intros t.
  destruct (mem t [STOP; VOID; BOOL; BYTE; DOUBLE; I16; I32; I64; STRING; STRUCT; MAP; SET; LIST; UTF8; UTF16; BINARY]) eqn:E.
  - left. unfold mem in E. apply existsb_exists in E as (u & Hu & Eu). apply Z.eqb_eq in Eu. subst. exact Hu.
  - right. unfold mem in E. cbn [existsb] in E.
    repeat match type of E with (_ || _) = false => apply orb_false_iff in E as [? E] end.
    unfold IsEmptyType, IsBaseType, IsStruct, IsContainer, mem. cbn [existsb].
    repeat match goal with H : (t =? _) = false |- _ => rewrite H; revert H end. intros.
    split; [reflexivity|]. split; [reflexivity|]. split; [reflexivity|]. split; [reflexivity|].
    intros x d. unfold CoerceData, coerce_nil.
    repeat match goal with H : (t =? _) = false |- _ => rewrite H; revert H end. intros.
    destruct d; reflexivity.
Qed.

Ltac known H := unfold known_type in H; cbn [In] in H;
  repeat (destruct H as [<-|H]); try contradiction.

Lemma coerce_no_panic : forall x t d, known_type t -> exists v ok, CoerceData x t d = Ok (v, ok).
Proof.
  intros x t d H. known H; destruct d; cbn -[coerce_bool coerce_byte coerce_double coerce_int text_of];
  repeat match goal with
  | |- context [Ok ?e] => match e with (_, _) => fail 1 | _ => destruct e end
  end; eauto.
Qed.

(** ** Idempotence *)

(** Byte strings hold bytes. *)
Definition bytes_ok (d : any) : Prop := match d with ABytes b => is_bytes b | _ => True end.
Definition is_numeric (d : any) : bool := match d with ANum _ _ _ _ => true | _ => false end.

Lemma nth0_byte : forall b, is_bytes b -> 0 <= nth 0 b 0 < 256.
Proof. intros b H. destruct b; cbn; [lia|]. inversion H; subst. exact H2. Qed.

Lemma wrapu8_byte : forall x z, 0 <= z < 256 -> CoerceData x BYTE (AByte z) = Ok (AByte z, true).
Proof. intros. cbn. unfold wrapu. rewrite Z.mod_small by lia. reflexivity. Qed.
Lemma coerce_byte_conv : forall x z, CoerceData x BYTE (AByte (wrapu 8 z)) = Ok (AByte (wrapu 8 z), true).
Proof. intros. apply wrapu8_byte. unfold wrapu. lia. Qed.

(** What a successful coercion to [p] yields. *)
Inductive coerced : Z -> any -> Prop :=
| co_empty p : In p [STOP; VOID; BINARY] -> coerced p ANil
| co_bool b : coerced BOOL (ABool b)
| co_byte z : in_u 8 z -> coerced BYTE (AByte z)
| co_dbl b : coerced DOUBLE (AF64 b)
| co_i16 z : in_s 16 z -> coerced I16 (AInt16 z)
| co_i32 z : in_s 32 z -> coerced I32 (AInt32 z)
| co_i64 z : in_s 64 z -> coerced I64 (AInt64 z)
| co_str p s : In p [STRING; UTF8; UTF16] -> coerced p (AStr s)
| co_bin s : coerced BINARY (ABytes s)
| co_struct a n fs at_ : coerced STRUCT (AStruct a n fs at_)
| co_map a k v sz l b : coerced MAP (AMap a k v sz l b)
| co_list a e l : coerced LIST (AList a e l)
| co_set a e sz l : coerced SET (ASet a e sz l).

Lemma coerced_fixed : forall x p v, coerced p v -> CoerceData x p v = Ok (v, true).
Proof.
  intros x p v H. destruct H; try reflexivity.
  - cbn [In] in H. destruct H as [<-|[<-|[<-|[]]]]; reflexivity.
  - apply coerce_native; constructor; assumption.
  - apply coerce_native; constructor; assumption.
  - apply coerce_native; constructor; assumption.
  - apply coerce_native; constructor; assumption.
  - cbn [In] in H. destruct H as [<-|[<-|[<-|[]]]]; reflexivity.
Qed.

Lemma coerce_text_true : forall conv zero d v, coerce_text conv zero d = (v, true) -> exists z, v = conv z.
Proof.
  intros conv zero d v. unfold coerce_text.
  destruct (match d with AStr s => Some s | _ => as_stringer d end) as [s|]; [|discriminate].
  destruct (ParseInt s 64) as [i [e|]]; [|discriminate]. intros H. injection H as <-. eauto.
Qed.

Lemma coerce_int_true : forall x bits conv d v, is_numeric d = false ->
  coerce_int x bits conv d = (v, true) -> exists z, v = conv (wraps bits z).
Proof.
  intros x bits conv d v Hn H.
  destruct d; try discriminate Hn; cbn [coerce_int as_integer] in H;
  first [ injection H as <-; eexists; reflexivity | apply coerce_text_true in H as (z' & ->); eexists; reflexivity ].
Qed.

Lemma coerce_byte_true : forall x d v, bytes_ok d -> coerce_byte x d = (v, true) -> exists z, v = AByte z /\ in_u 8 z.
Proof.
  intros x d v Hb H.
  assert (R : forall z, in_u 8 (wrapu 8 z)) by (intros; unfold wrapu, in_u; lia).
  destruct d; cbn [coerce_byte as_integer] in H;
  first [ injection H as <-; eexists; split; [reflexivity|]; first [apply R | apply nth0_byte; exact Hb]
        | apply coerce_text_true in H as (z' & ->); eexists; split; [reflexivity|]; apply R ].
Qed.

Lemma coerce_double_true : forall x d v, is_numeric d = false -> coerce_double x d = (v, true) -> exists b, v = AF64 b.
Proof.
  intros x d v Hn H. destruct d; try discriminate Hn; cbn [coerce_double as_integer as_stringer] in H;
  try discriminate H; try (injection H as <-; eexists; reflexivity);
  match type of H with context [x_parse_float x ?s] => destruct (x_parse_float x s) as [v' [e|]] end;
  try discriminate H; injection H as <-; eexists; reflexivity.
Qed.

Lemma coerce_bool_true : forall d v, coerce_bool d = (v, true) -> exists b, v = ABool b.
Proof. intros d v H; destruct d; cbn in H; try discriminate H; injection H as <-; eexists; reflexivity. Qed.

Lemma coerce_nil_true : forall p v, coerce_nil p = Ok (v, true) -> coerced p v.
Proof.
  intros p v H. unfold coerce_nil in H.
  repeat match type of H with (if ?c then _ else _) = _ => destruct c eqn:?; [|] end;
  try discriminate; injection H as <-; 
  repeat match goal with E : (p =? _) = true |- _ => apply Z.eqb_eq in E; subst p end;
  repeat match goal with E : (_ || _) = true |- _ => apply orb_true_iff in E as [E|E] end;
  repeat match goal with E : (p =? _) = true |- _ => apply Z.eqb_eq in E; subst p end;
  constructor; cbn; try tauto; unfold in_u, in_s; lia.
Qed.

Lemma coerce_result : forall x p d v, bytes_ok d ->
  (is_numeric d = true -> ~ In p [DOUBLE; I16; I32; I64]) ->
  CoerceData x p d = Ok (v, true) -> coerced p v.
Proof.
  intros x p d v Hb Hn H.
  assert (HN : In p [DOUBLE; I16; I32; I64] -> is_numeric d = false)
    by (destruct (is_numeric d); [intros I; destruct (Hn eq_refl I)|reflexivity]).
  destruct (is_nil d) eqn:En.
  - destruct d; try discriminate En. apply coerce_nil_true. exact H.
  - destruct (known_bool p) as [K|(_ & _ & _ & _ & K)]; [|rewrite K in H; discriminate].
    assert (E : forall A (a b : A), match d with ANil => a | _ => b end = b) by (destruct d; try discriminate En; reflexivity).
    unfold CoerceData in H. rewrite E in H. clear E.
    known K; cbn -[text_of coerce_byte coerce_double coerce_int coerce_bool] in H; injection H as H.
    + subst; constructor; cbn; tauto.
    + subst; constructor; cbn; tauto.
    + apply coerce_bool_true in H as (b & ->). constructor.
    + apply coerce_byte_true in H as (b & -> & ?); [|assumption]. constructor; assumption.
    + apply coerce_double_true in H as (b & ->); [|apply HN; cbn; tauto]. constructor; assumption.
    + apply coerce_int_true in H as (b & ->); [|apply HN; cbn; tauto]. constructor; apply wraps_range; lia.
    + apply coerce_int_true in H as (b & ->); [|apply HN; cbn; tauto]. constructor; apply wraps_range; lia.
    + apply coerce_int_true in H as (b & ->); [|apply HN; cbn; tauto]. constructor; apply wraps_range; lia.
    + destruct (text_of x d); [|discriminate]. injection H as <-. constructor; cbn; tauto.
    + subst v. destruct d; constructor.
    + destruct d; try discriminate H; injection H as <-; constructor.
    + destruct d; try discriminate H; injection H as <-; constructor.
    + destruct d; try discriminate H; injection H as <-; constructor.
    + destruct (text_of x d); [|discriminate]. injection H as <-. constructor; cbn; tauto.
    + destruct (text_of x d); [|discriminate]. injection H as <-. constructor; cbn; tauto.
    + destruct (text_of x d); [|discriminate]. injection H as <-. constructor; cbn; tauto.
Qed.

(** ** Strings to integers *)
Definition int_target (p bits : Z) (conv : Z -> any) : Prop :=
  (p = I16 /\ bits = 16 /\ conv = AInt16) \/ (p = I32 /\ bits = 32 /\ conv = AInt32) \/
  (p = I64 /\ bits = 64 /\ conv = AInt64).

Lemma coerce_string_int : forall x p bits conv s, int_target p bits conv ->
  (forall z, decimal s z -> in_s 64 z -> CoerceData x p (AStr s) = Ok (conv 0, false)) /\
  ((forall z, decimal s z -> ~ in_s 64 z) -> exists z, CoerceData x p (AStr s) = Ok (conv (wraps bits z), true)).
Proof.
  intros x p bits conv s T.
  assert (E : CoerceData x p (AStr s) = Ok (coerce_text (fun z => conv (wraps bits z)) (conv 0) (AStr s))).
  { destruct T as [(-> & -> & ->)|[(-> & -> & ->)|(-> & -> & ->)]]; reflexivity. }
  rewrite E. unfold coerce_text. split.
  - intros z D R. rewrite (proj2 (ParseInt_spec s 64 z ltac:(lia))) by auto. reflexivity.
  - intros N. destruct (ParseInt s 64) as [i [e|]] eqn:P; [eexists; reflexivity|].
    apply (proj1 (ParseInt_spec s 64 i ltac:(lia))) in P as [D R]. destruct (N _ D R).
Qed.
Lemma coerce_string_byte : forall x s,
  (forall z, decimal s z -> in_s 64 z -> CoerceData x BYTE (AStr s) = Ok (AByte 0, false)) /\
  ((forall z, decimal s z -> ~ in_s 64 z) -> exists z, CoerceData x BYTE (AStr s) = Ok (AByte (wrapu 8 z), true)).
Proof.
  intros x s. 
  assert (E : CoerceData x BYTE (AStr s) = Ok (coerce_text (fun z => AByte (wrapu 8 z)) (AByte 0) (AStr s))) by reflexivity.
  rewrite E. unfold coerce_text. split.
  - intros z D R. rewrite (proj2 (ParseInt_spec s 64 z ltac:(lia))) by auto. reflexivity.
  - intros N. destruct (ParseInt s 64) as [i [e|]] eqn:P; [eexists; reflexivity|].
    apply (proj1 (ParseInt_spec s 64 i ltac:(lia))) in P as [D R]. destruct (N _ D R).
Qed.

(** Integers in range keep their value. *)
Lemma coerce_int_value : forall x p bits conv d z, int_target p bits conv -> as_integer d = Some z ->
  in_s bits z -> CoerceData x p d = Ok (conv z, true).
Proof.
  intros x p bits conv d z T A R.
  assert (E : CoerceData x p d = Ok (coerce_int x bits conv d)).
  { destruct T as [(-> & -> & ->)|[(-> & -> & ->)|(-> & -> & ->)]]; destruct d; try discriminate A; reflexivity. }
  rewrite E. assert (C : coerce_int x bits conv d = (conv (wraps bits z), true)).
  { destruct d; try discriminate A; cbn [coerce_int]; rewrite A; reflexivity. }
  rewrite C, wraps_id; [reflexivity| |exact R].
  destruct T as [(_ & -> & _)|[(_ & -> & _)|(_ & -> & _)]]; lia.
Qed.
Lemma coerce_byte_value : forall x d z, as_integer d = Some z -> in_u 8 z -> CoerceData x BYTE d = Ok (AByte z, true).
Proof.
  intros x d z A R.
  assert (E : CoerceData x BYTE d = Ok (coerce_byte x d)) by (destruct d; try discriminate A; reflexivity).
  rewrite E. assert (C : coerce_byte x d = (AByte (wrapu 8 z), true)) by (destruct d; try discriminate A; cbn [coerce_byte]; rewrite A; reflexivity).
  rewrite C. unfold wrapu. rewrite Z.mod_small by (unfold in_u in R; lia). reflexivity.
Qed.
