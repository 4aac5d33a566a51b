(** The parts of Go's strconv and unicode/utf8 the library calls. *)
From Coq Require Import ZArith List Bool Lia.
From Coq Require Import ZifyBool ZifyNat.
From Verif Require Import Base Arith.
Import ListNotations.
Open Scope Z_scope.
Ltac Zify.zify_post_hook ::= Z.div_mod_to_equations.

(** ** Integer parsing, base 10 *)

Inductive numerr : Type := ErrSyntax | ErrRange.

Definition is_digit (c : Z) : bool := (48 <=? c) && (c <=? 57).

(** strconv.ParseUint loop: stops at the first bad character or overflow. *)
Fixpoint parse_uint_loop (s : bytes) (n : Z) : Z * option numerr :=
  match s with
  | [] => (n, None)
  | c :: s' =>
    if is_digit c then
      let n' := n * 10 + (c - 48) in
      if 2 ^ 64 <=? n' then (2 ^ 64 - 1, Some ErrRange) else parse_uint_loop s' n'
    else (0, Some ErrSyntax)
  end.

Definition parse_uint (s : bytes) : Z * option numerr :=
  match s with [] => (0, Some ErrSyntax) | _ => parse_uint_loop s 0 end.

(** strconv.ParseInt(s, 10, bits); strconv.Atoi is [ParseInt s 64] (64-bit int). *)
Definition ParseInt (s : bytes) (bits : Z) : Z * option numerr :=
  match s with
  | [] => (0, Some ErrSyntax)
  | c :: s' =>
    let neg := c =? 45 in
    let body := if (c =? 43) || (c =? 45) then s' else s in
    match parse_uint body with
    | (_, Some ErrSyntax) => (0, Some ErrSyntax)
    | (un, _) =>
      let cutoff := 2 ^ (bits - 1) in
      if negb neg && (cutoff <=? un) then (cutoff - 1, Some ErrRange)
      else if neg && (cutoff <? un) then (- cutoff, Some ErrRange)
      else (if neg then - un else un, None)
    end
  end.

(** ** Integer formatting, base 10 (strconv.FormatInt(z, 10), strconv.Itoa) *)
Fixpoint dec_digits (fuel : nat) (n : Z) (acc : bytes) : bytes :=
  match fuel with
  | O => acc
  | S f => let acc' := (48 + n mod 10) :: acc in
           if n / 10 =? 0 then acc' else dec_digits f (n / 10) acc'
  end.
(** 20 digits are enough for every 64-bit magnitude. *)
Definition format_uint (n : Z) : bytes := dec_digits 20 n [].
Definition FormatInt (z : Z) : bytes :=
  if z <? 0 then 45 :: format_uint (- z) else format_uint z.

(** ** What a decimal string denotes *)
Fixpoint horner (s : bytes) (n : Z) : Z :=
  match s with [] => n | c :: s' => horner s' (n * 10 + (c - 48)) end.

Inductive decimal : bytes -> Z -> Prop :=
| dec_pos s : s <> [] -> Forall (fun c => 48 <= c <= 57) s -> decimal s (horner s 0)
| dec_plus s : s <> [] -> Forall (fun c => 48 <= c <= 57) s -> decimal (43 :: s) (horner s 0)
| dec_minus s : s <> [] -> Forall (fun c => 48 <= c <= 57) s ->
    decimal (45 :: s) (- horner s 0).

Lemma horner_mono : forall s n, Forall (fun c => 48 <= c <= 57) s -> 0 <= n -> n <= horner s n.
Proof.
  induction s as [|c s IH]; intros n F Hn; cbn [horner]; [lia|].
  inversion F; subst. specialize (IH (n * 10 + (c - 48)) ltac:(assumption) ltac:(lia)). lia.
Qed.

Lemma parse_uint_loop_ok : forall s n v, 0 <= n < 2 ^ 64 ->
  parse_uint_loop s n = (v, None) <->
  (Forall (fun c => 48 <= c <= 57) s /\ v = horner s n /\ v < 2 ^ 64).
Proof.
  induction s as [|c s IH]; intros n v Hn; cbn [parse_uint_loop horner].
  - split; [intros H; injection H as <-; repeat split; [constructor|lia]|intros (_ & -> & _); reflexivity].
  - destruct (is_digit c) eqn:D.
    + unfold is_digit in D. destruct (Z.leb_spec (2 ^ 64) (n * 10 + (c - 48))).
      * split; [discriminate|]. intros (F & -> & L). inversion F; subst.
        pose proof (horner_mono s (n * 10 + (c - 48)) ltac:(assumption) ltac:(lia)). lia.
      * rewrite IH by lia. split; intros (F & E & L); repeat split; auto.
        { constructor; [lia|auto]. } { inversion F; auto. }
    + split; [discriminate|]. intros (F & _). inversion F; subst. unfold is_digit in D. lia.
Qed.

(** A loop that fails does not see a syntactically valid in-range number; and syntax errors
    only come from bad characters. *)
Lemma parse_uint_loop_range : forall s n v, 0 <= n < 2 ^ 64 ->
  parse_uint_loop s n = (v, Some ErrRange) -> v = 2 ^ 64 - 1.
Proof.
  induction s as [|c s IH]; intros n v Hn; cbn [parse_uint_loop]; [discriminate|].
  destruct (is_digit c) eqn:D; [|discriminate].
  unfold is_digit in D.
  destruct (Z.leb_spec (2 ^ 64) (n * 10 + (c - 48))).
  - intros H'; injection H' as <-. reflexivity.
  - apply IH. lia.
Qed.
Lemma parse_uint_loop_syntax : forall s n v, 
  parse_uint_loop s n = (v, Some ErrSyntax) -> v = 0 /\ ~ Forall (fun c => 48 <= c <= 57) s.
Proof.
  induction s as [|c s IH]; intros n v; cbn [parse_uint_loop]; [discriminate|].
  destruct (is_digit c) eqn:D.
  - destruct (2 ^ 64 <=? _); [discriminate|]. intros H. apply IH in H as [-> N]. split; [reflexivity|].
    intros F. inversion F; auto.
  - intros H; injection H as <-. split; [reflexivity|]. intros F. inversion F; subst.
    unfold is_digit in D. lia.
Qed.
Lemma parse_uint_loop_digits : forall s n, 0 <= n < 2 ^ 64 ->
  Forall (fun c => 48 <= c <= 57) s ->
  parse_uint_loop s n = if horner s n <? 2 ^ 64 then (horner s n, None) else (2 ^ 64 - 1, Some ErrRange).
Proof.
  intros s n Hn F.
  destruct (parse_uint_loop s n) as [v [[]|]] eqn:E.
  - apply parse_uint_loop_syntax in E. tauto.
  - pose proof (parse_uint_loop_range _ _ _ Hn E) as ->.
    destruct (Z.ltb_spec (horner s n) (2 ^ 64)); [|reflexivity].
    assert (X : parse_uint_loop s n = (horner s n, None)) by (apply parse_uint_loop_ok; auto).
    congruence.
  - apply parse_uint_loop_ok in E as (_ & -> & L); [|auto].
    destruct (Z.ltb_spec (horner s n) (2 ^ 64)); [reflexivity|lia].
Qed.

Lemma horner_pos0 : forall s, Forall (fun c => 48 <= c <= 57) s -> 0 <= horner s 0.
Proof. intros. apply horner_mono; [auto|lia]. Qed.

(** ParseInt succeeds exactly on the decimal strings of numbers in range. *)
Theorem ParseInt_spec : forall s bits z, 1 <= bits <= 64 ->
  ParseInt s bits = (z, None) <-> (decimal s z /\ in_s bits z).
Proof.
  intros s bits z Hb.
  assert (Cut : 0 < 2 ^ (bits - 1) <= 2 ^ 63).
  { split; [apply Z.pow_pos_nonneg; lia|apply Z.pow_le_mono_r; lia]. }
  unfold in_s. split.
  - unfold ParseInt. destruct s as [|c s']; [discriminate|].
    set (body := if (c =? 43) || (c =? 45) then s' else c :: s').
    destruct (parse_uint body) as [un [[]|]] eqn:P; try discriminate.
    + unfold parse_uint in P. destruct body as [|b0 b1]; [discriminate|].
      apply parse_uint_loop_range in P; [|lia]. subst un. intros H.
      destruct (c =? 45); cbn [negb andb] in H;
        [destruct (Z.ltb_spec (2 ^ (bits - 1)) (2 ^ 64 - 1))|
         destruct (Z.leb_spec (2 ^ (bits - 1)) (2 ^ 64 - 1))]; try discriminate; lia.
    + unfold parse_uint in P. destruct body as [|b0 b1] eqn:B; [discriminate|]. rewrite <- B in P.
      apply parse_uint_loop_ok in P as (F & -> & L); [|lia].
      assert (Hne : body <> []) by (rewrite B; discriminate). clear B b0 b1.
      pose proof (horner_pos0 _ F). intros Hz.
      assert (Dec : decimal (c :: s') (if c =? 45 then - horner body 0 else horner body 0)).
      { unfold body in *. destruct (Z.eqb_spec c 45); [subst; cbn [orb Z.eqb] in *; apply dec_minus; auto|].
        destruct (Z.eqb_spec c 43); [subst; cbn [orb Z.eqb] in *; apply dec_plus; auto|].
        cbn [orb] in *. apply dec_pos; auto. }
      destruct (c =? 45); cbn [negb andb] in Hz.
      * destruct (Z.ltb_spec (2 ^ (bits - 1)) (horner body 0)); [discriminate|].
        injection Hz as <-. split; [auto|lia].
      * destruct (Z.leb_spec (2 ^ (bits - 1)) (horner body 0)); [discriminate|].
        injection Hz as <-. split; [auto|lia].
  - intros [D R].
    assert (Main : forall s, s <> [] -> Forall (fun c => 48 <= c <= 57) s -> horner s 0 < 2 ^ 64 ->
             parse_uint s = (horner s 0, None)).
    { intros s0 Hne F L. unfold parse_uint. destruct s0 as [|b0 b1] eqn:B; [congruence|].
      rewrite <- B in *. apply parse_uint_loop_ok; auto. lia. }
    assert (2 ^ 63 < 2 ^ 64) by reflexivity.
    destruct D as [t Hne F|t Hne F|t Hne F]; pose proof (horner_pos0 _ F).
    + destruct t as [|c t']; [congruence|]. inversion F; subst.
      unfold ParseInt. replace (c =? 43) with false by lia. replace (c =? 45) with false by lia.
      cbn [orb negb andb]. rewrite Main by (auto; lia).
      destruct (Z.leb_spec (2 ^ (bits - 1)) (horner (c :: t') 0)); [lia|reflexivity].
    + unfold ParseInt. cbn [orb Z.eqb Pos.eqb negb andb]. rewrite Main by (auto; lia).
      destruct (Z.leb_spec (2 ^ (bits - 1)) (horner t 0)); [lia|reflexivity].
    + unfold ParseInt. cbn [orb Z.eqb Pos.eqb negb andb]. rewrite Main by (auto; lia).
      destruct (Z.ltb_spec (2 ^ (bits - 1)) (horner t 0)); [lia|reflexivity].
Qed.

(** ** Formatting and parsing are inverse *)
Lemma horner_app : forall a b n, horner (a ++ b) n = horner b (horner a n).
Proof. induction a; intros; cbn [horner app]; auto. Qed.

Lemma dec_digits_spec : forall fuel n acc, 0 <= n < 10 ^ Z.of_nat fuel -> (fuel > 0)%nat ->
  exists d, dec_digits fuel n acc = d ++ acc /\ d <> [] /\
            Forall (fun c => 48 <= c <= 57) d /\ horner d 0 = n.
Proof.
  induction fuel as [|f IH]; intros n acc Hn Hf; [lia|].
  cbn [dec_digits]. destruct (Z.eqb_spec (n / 10) 0) as [E|E].
  - exists [48 + n mod 10]. split; [reflexivity|]. split; [discriminate|].
    split; [constructor; [lia|constructor]|]. cbn [horner]. lia.
  - rewrite Nat2Z.inj_succ, Z.pow_succ_r in Hn by lia.
    assert (Hf' : (f > 0)%nat).
    { destruct f; [cbn in Hn; lia|lia]. }
    destruct (IH (n / 10) ((48 + n mod 10) :: acc)) as (d & E1 & E2 & E3 & E4); [lia|lia|].
    exists (d ++ [48 + n mod 10]). rewrite E1, <- app_assoc. split; [reflexivity|].
    split; [destruct d; discriminate|]. split.
    + apply Forall_app. split; [auto|]. constructor; [lia|constructor].
    + rewrite horner_app, E4. cbn [horner]. lia.
Qed.

Lemma format_uint_spec : forall n, 0 <= n < 2 ^ 64 ->
  format_uint n <> [] /\ Forall (fun c => 48 <= c <= 57) (format_uint n) /\
  horner (format_uint n) 0 = n.
Proof.
  intros n Hn. unfold format_uint.
  destruct (dec_digits_spec 20 n []) as (d & E1 & E2 & E3 & E4); [|lia|].
  - split; [lia|]. eapply Z.lt_trans; [apply Hn|]. reflexivity.
  - rewrite E1, app_nil_r. auto.
Qed.

Theorem FormatInt_decimal : forall z, in_s 64 z -> decimal (FormatInt z) z.
Proof.
  intros z Hz. unfold in_s in Hz. cbn [Z.sub] in Hz. change (2 ^ (64 - 1)) with (2 ^ 63) in Hz.
  assert (2 ^ 63 < 2 ^ 64) by reflexivity.
  unfold FormatInt. destruct (Z.ltb_spec z 0).
  - destruct (format_uint_spec (- z)) as (A & B & C); [lia|].
    replace z with (- horner (format_uint (- z)) 0) at 2 by lia. apply dec_minus; auto.
  - destruct (format_uint_spec z) as (A & B & C); [lia|].
    replace z with (horner (format_uint z) 0) at 2 by lia. apply dec_pos; auto.
Qed.

Theorem ParseInt_FormatInt : forall z, in_s 64 z -> ParseInt (FormatInt z) 64 = (z, None).
Proof.
  intros z Hz. apply ParseInt_spec; [lia|]. split; [apply FormatInt_decimal; auto|auto].
Qed.

(** ** UTF-8 encoding of a rune: Go's string(i) for an integer i.
    Values that are no code point give U+FFFD. *)
Definition utf8_encode (r : Z) : bytes :=
  let r := if (r <? 0) || (0x10FFFF <? r) || ((0xD800 <=? r) && (r <=? 0xDFFF))
           then 0xFFFD else r in
  if r <? 0x80 then [r]
  else if r <? 0x800 then [0xC0 + r / 64; 0x80 + r mod 64]
  else if r <? 0x10000 then [0xE0 + r / 4096; 0x80 + (r / 64) mod 64; 0x80 + r mod 64]
  else [0xF0 + r / 262144; 0x80 + (r / 4096) mod 64; 0x80 + (r / 64) mod 64; 0x80 + r mod 64].

Example atoi1 : ParseInt [45; 49; 50] 64 = (-12, None). Proof. reflexivity. Qed.
Example atoi2 : ParseInt [57; 57; 57; 57; 57; 57; 57; 57; 57; 57; 57; 57; 57; 57; 57; 57; 57; 57; 57] 64
  = (2 ^ 63 - 1, Some ErrRange). Proof. reflexivity. Qed.
Example fmt1 : FormatInt (-1203) = [45; 49; 50; 48; 51]. Proof. reflexivity. Qed.
Example utf8_1 : utf8_encode 0x20AC = [0xE2; 0x82; 0xAC]. Proof. reflexivity. Qed.

Lemma utf8_encode_bytes : forall r, is_bytes (utf8_encode r).
Proof.
  intros r. unfold utf8_encode.
  set (r' := if (r <? 0) || (0x10FFFF <? r) || ((0xD800 <=? r) && (r <=? 0xDFFF))
             then 0xFFFD else r).
  assert (R : 0 <= r' <= 0x10FFFF) by (unfold r'; destruct (_ || _) eqn:E; lia).
  clearbody r'. cbv zeta; repeat match goal with |- context [if ?c then _ else _] => destruct c eqn:? end; repeat constructor; unfold is_byte; lia.
Qed.
