(** Facts about the text encodings of JsonText.v. *)
From Coq Require Import ZArith List Bool Lia.
From Coq Require Import ZifyBool ZifyNat.
From Verif Require Import Base Arith Strconv JsonText.
Import ListNotations.
Open Scope Z_scope.
Ltac Zify.zify_post_hook ::= Z.div_mod_to_equations.

(** Unicode scalar values; UTF-8 text is a concatenation of their encodings. *)
Definition scalar (r : Z) : Prop := 0 <= r < 0xD800 \/ 0xE000 <= r <= 0x10FFFF.
Definition utf8 (cs : list Z) : bytes := flat_map utf8_encode cs.

Lemma utf8_encode_cases : forall r, scalar r ->
  (0 <= r < 0x80 /\ utf8_encode r = [r]) \/
  (0x80 <= r < 0x800 /\ utf8_encode r = [0xC0 + r / 64; 0x80 + r mod 64]) \/
  (0x800 <= r < 0x10000 /\ utf8_encode r = [0xE0 + r / 4096; 0x80 + (r / 64) mod 64; 0x80 + r mod 64]) \/
  (0x10000 <= r <= 0x10FFFF /\ utf8_encode r =
     [0xF0 + r / 262144; 0x80 + (r / 4096) mod 64; 0x80 + (r / 64) mod 64; 0x80 + r mod 64]).
Proof.
  intros r H. unfold utf8_encode, scalar in *.
  replace ((r <? 0) || (0x10FFFF <? r) || ((0xD800 <=? r) && (r <=? 0xDFFF))) with false by lia.
  cbv zeta. destruct (Z.ltb_spec r 0x80); [left; split; [lia|reflexivity]|].
  destruct (Z.ltb_spec r 0x800); [right; left; split; [lia|reflexivity]|].
  destruct (Z.ltb_spec r 0x10000); [right; right; left; split; [lia|reflexivity]|].
  right; right; right; split; [lia|reflexivity].
Qed.

Lemma utf8_decode_encode : forall r s, scalar r ->
  utf8_decode (utf8_encode r ++ s) = (r, length (utf8_encode r)).
Proof.
  intros r s H.
  destruct (utf8_encode_cases r H) as [[R ->]|[[R ->]|[[R ->]|[R ->]]]];
    cbn [app length]; unfold utf8_decode, cont.
  - now replace (r <? 128) with true by lia.
  - replace (192 + r / 64 <? 128) with false by lia. replace (192 + r / 64 <? 194) with false by lia.
    replace (192 + r / 64 <? 224) with true by lia.
    replace ((128 <=? 128 + r mod 64) && (128 + r mod 64 <? 192)) with true by lia.
    f_equal. lia.
  - replace (224 + r / 4096 <? 128) with false by lia. replace (224 + r / 4096 <? 194) with false by lia.
    replace (224 + r / 4096 <? 224) with false by lia. replace (224 + r / 4096 <? 240) with true by lia.
    cbv zeta.
    replace ((224 + r / 4096 - 224) * 4096 + (128 + r / 64 mod 64 - 128) * 64 + (128 + r mod 64 - 128))
      with r by lia.
    unfold scalar in H.
    match goal with |- (if ?c then _ else _) = _ => replace c with true by lia end. reflexivity.
  - replace (240 + r / 262144 <? 128) with false by lia. replace (240 + r / 262144 <? 194) with false by lia.
    replace (240 + r / 262144 <? 224) with false by lia. replace (240 + r / 262144 <? 240) with false by lia.
    replace (240 + r / 262144 <? 248) with true by lia.
    cbv zeta.
    replace ((240 + r / 262144 - 240) * 262144 + (128 + r / 4096 mod 64 - 128) * 4096
       + (128 + r / 64 mod 64 - 128) * 64 + (128 + r mod 64 - 128)) with r by lia.
    match goal with |- (if ?c then _ else _) = _ => replace c with true by lia end. reflexivity.
Qed.

Lemma utf8_cons : forall r cs, utf8 (r :: cs) = utf8_encode r ++ utf8 cs.
Proof. reflexivity. Qed.
Lemma utf8_encode_hd : forall r s, scalar r -> exists c t, utf8_encode r ++ s = c :: t /\ (c <? 0x80) = (r <? 0x80) /\ (c = r \/ 0x80 <= c).
Proof.
  intros r s H. destruct (utf8_encode_cases r H) as [[R ->]|[[R ->]|[[R ->]|[R ->]]]];
    cbn [app]; eexists _, _; (split; [reflexivity|]); lia.
Qed.
Lemma utf8_encode_length : forall r, (1 <= length (utf8_encode r))%nat.
Proof.
  intros r. unfold utf8_encode.
  repeat match goal with |- context [if ?c then _ else _] => destruct c end; cbn [length]; lia.
Qed.

(** ** Quoting *)
Definition esc (st : jstyle) (r : Z) : bytes := if r <? 0x80 then escape_ascii st r else escape_rune st r.

Lemma marshal_utf8 : forall st cs f, Forall scalar cs -> (length (utf8 cs) <= f)%nat ->
  marshal_body f st (utf8 cs) = Some (flat_map (esc st) cs).
Proof.
  intros st cs. induction cs as [|r cs IH]; intros f F L.
  - destruct f; reflexivity.
  - inversion F as [|? ? Hr Hcs]; subst. rewrite utf8_cons in *. rewrite app_length in L.
    pose proof (utf8_encode_length r) as L1. destruct f as [|f]; [lia|].
    cbn [marshal_body flat_map].
    destruct (utf8_encode_hd r (utf8 cs) Hr) as (c & t & E & Hc & Hcr).
    pose proof (utf8_decode_encode r (utf8 cs) Hr) as D.
    rewrite E in *. unfold esc at 1. rewrite <- Hc.
    destruct (Z.ltb_spec c 0x80).
    + assert (c = r) by lia. subst c.
      assert (t = utf8 cs).
      { destruct (utf8_encode_cases r Hr) as [[R X]|[[R X]|[[R X]|[R X]]]]; rewrite X in E; inversion E; try lia; reflexivity. }
      subst t. rewrite IH; [reflexivity|assumption|lia].
    + rewrite D.
      assert (N : (2 <= length (utf8_encode r))%nat).
      { destruct (utf8_encode_cases r Hr) as [[R X]|[[R X]|[[R X]|[R X]]]]; rewrite X; cbn [length]; lia. }
      replace ((r =? 65533) && (length (utf8_encode r) =? 1)%nat) with false by lia.
      rewrite <- E, skipn_app, skipn_all, Nat.sub_diag. cbn [app skipn].
      rewrite IH; [reflexivity|assumption|lia].
Qed.

Lemma hex_val_digit : forall d, 0 <= d < 16 -> hex_val (hex_digit d) = Some d.
Proof.
  intros d H. unfold hex_digit, hex_val. destruct (Z.ltb_spec d 10).
  - replace ((48 <=? 48 + d) && (48 + d <=? 57)) with true by lia. f_equal. lia.
  - replace ((48 <=? 87 + d) && (87 + d <=? 57)) with false by lia.
    replace ((97 <=? 87 + d) && (87 + d <=? 102)) with true by lia. f_equal. lia.
Qed.
Lemma hex4_u_escape : forall r s, 0 <= r < 0x10000 ->
  hex4 (hex_digit (r / 4096 mod 16) :: hex_digit (r / 256 mod 16) :: hex_digit (r / 16 mod 16)
        :: hex_digit (r mod 16) :: s) = Some (r, s).
Proof.
  intros r s H. unfold hex4. rewrite !hex_val_digit by lia. f_equal. f_equal. lia.
Qed.

Lemma unquote_u : forall f r s, scalar r -> r < 0x10000 ->
  unquote_body (S f) (u_escape r ++ s) = option_map (app (utf8_encode r)) (unquote_body f s).
Proof.
  intros f r s H L. unfold u_escape. cbn [app unquote_body Z.eqb Pos.eqb orb].
  unfold scalar in H. rewrite hex4_u_escape by lia.
  now replace ((55296 <=? r) && (r <=? 57343)) with false by lia.
Qed.
Lemma unquote_plain : forall f r s, scalar r -> 32 <= r -> r <> 34 -> r <> 92 ->
  unquote_body (S f) (utf8_encode r ++ s) = option_map (app (utf8_encode r)) (unquote_body f s).
Proof.
  intros f r s H R N1 N2. cbn [unquote_body].
  pose proof (utf8_decode_encode r s H) as D.
  destruct (utf8_encode_hd r s H) as (c & t & E & Hc & Hcr). rewrite E in *.
  replace (c =? 34) with false by lia. replace (c =? 92) with false by lia.
  replace (c <? 32) with false by lia.
  destruct (Z.ltb_spec c 0x80).
  - assert (c = r) by lia. subst c.
    destruct (utf8_encode_cases r H) as [[R' X]|[[R' X]|[[R' X]|[R' X]]]]; try lia.
    rewrite X in *. inversion E; subst. reflexivity.
  - rewrite D. rewrite <- E, skipn_app, skipn_all, Nat.sub_diag. reflexivity.
Qed.
Lemma option_map_cons : forall (r : Z) (s : option bytes), option_map (cons r) s = option_map (app [r]) s.
Proof. intros r [s|]; reflexivity. Qed.

Lemma unquote_esc : forall st f r s, scalar r ->
  unquote_body (S f) (esc st r ++ s) = option_map (app (utf8_encode r)) (unquote_body f s).
Proof.
  intros st f r s H. unfold esc. destruct (Z.ltb_spec r 0x80) as [L|L].
  - assert (U : utf8_encode r = [r]).
    { destruct (utf8_encode_cases r H) as [[R' X]|[[R' X]|[[R' X]|[R' X]]]]; [assumption|lia..]. }
    unfold escape_ascii. destruct ((r =? 34) || (r =? 92)) eqn:Q.
    + rewrite U. cbn [app unquote_body].
      replace (92 =? 34) with false by reflexivity. replace (92 =? 92) with true by reflexivity.
      rewrite Q. cbn [orb]. apply option_map_cons.
    + destruct (Z.ltb_spec r 32).
      * destruct (short_escape r) as [x|] eqn:X; [|apply unquote_u; [assumption|lia]].
        destruct (js_short st r); [|apply unquote_u; [assumption|lia]].
        rewrite U. cbn [app unquote_body]. unfold short_escape in X.
        replace (92 =? 34) with false by reflexivity. replace (92 =? 92) with true by reflexivity.
        destruct (Z.eqb_spec r 8); [subst r; inversion X; subst x; apply option_map_cons|].
        destruct (Z.eqb_spec r 9); [subst r; inversion X; subst x; apply option_map_cons|].
        destruct (Z.eqb_spec r 10); [subst r; inversion X; subst x; apply option_map_cons|].
        destruct (Z.eqb_spec r 12); [subst r; inversion X; subst x; apply option_map_cons|].
        destruct (Z.eqb_spec r 13); [subst r; inversion X; subst x; apply option_map_cons|discriminate].
      * destruct (_ && js_esc st r); [apply unquote_u; [assumption|lia]|].
        rewrite <- U at 1. apply unquote_plain; [assumption|lia..].
  - unfold escape_rune. destruct ((r <? 65536) && js_esc st r) eqn:X;
      [apply unquote_u; [assumption|lia]|apply unquote_plain; [assumption|lia..]].
Qed.

Lemma esc_length : forall st r, (1 <= length (esc st r))%nat.
Proof.
  intros st r. unfold esc, escape_ascii, escape_rune, u_escape.
  pose proof (utf8_encode_length r).
  repeat match goal with
  | |- context [if ?c then _ else _] => destruct c
  | |- context [match ?c with Some _ => _ | None => _ end] => destruct c
  end; cbn [length]; lia.
Qed.

Lemma unquote_escs : forall st cs f ws, Forall scalar cs -> forallb is_ws ws = true ->
  (length (flat_map (esc st) cs) < f)%nat ->
  unquote_body f (flat_map (esc st) cs ++ 34 :: ws) = Some (utf8 cs).
Proof.
  intros st cs. induction cs as [|r cs IH]; intros f ws F W L.
  - destruct f as [|f]; [cbn in L; lia|]. cbn. now rewrite W.
  - inversion F as [|? ? Hr Hcs]; subst. cbn [flat_map] in *. rewrite app_length in L.
    pose proof (esc_length st r). destruct f as [|f]; [lia|].
    rewrite <- app_assoc, unquote_esc by assumption. rewrite IH; [reflexivity|assumption..|lia].
Qed.

Definition quote_text (st : jstyle) (cs : list Z) : bytes := [34] ++ flat_map (esc st) cs ++ [34].
Lemma json_quote_utf8 : forall st cs, Forall scalar cs -> json_quote st (utf8 cs) = quote_text st cs.
Proof. intros st cs F. unfold json_quote. now rewrite marshal_utf8. Qed.

Theorem unquote_quote : forall st cs, Forall scalar cs ->
  json_unquote (json_quote st (utf8 cs)) = Some (utf8 cs).
Proof.
  intros st cs F. rewrite json_quote_utf8 by assumption. unfold quote_text. cbn [app json_unquote].
  apply unquote_escs; [assumption|reflexivity|]. rewrite app_length. cbn [length]. lia.
Qed.

(** A literal's body: quotes and backslashes only behind a backslash. *)
Inductive body : bytes -> Prop :=
| body_nil : body []
| body_plain c w : c <> 34 -> c <> 92 -> body w -> body (c :: w)
| body_esc c w : body w -> body (92 :: c :: w).
Lemma body_app : forall a b, body a -> body b -> body (a ++ b).
Proof. intros a b Ha Hb. induction Ha; cbn [app]; [assumption|now apply body_plain|now apply body_esc]. Qed.
Lemma body_plains : forall w, Forall (fun c => c <> 34 /\ c <> 92) w -> body w.
Proof. intros w F. induction F as [|c w [? ?] F IH]; [constructor|now apply body_plain]. Qed.

Lemma hex_digit_plain : forall d, 0 <= d < 16 -> hex_digit d <> 34 /\ hex_digit d <> 92.
Proof. intros d H. unfold hex_digit. destruct (Z.ltb_spec d 10); lia. Qed.
Lemma body_u : forall r, body (u_escape r).
Proof.
  intros r. unfold u_escape. apply body_esc. apply body_plains.
  repeat (constructor; [apply hex_digit_plain; lia|]). constructor.
Qed.
Lemma body_plain_rune : forall r, scalar r -> r <> 34 -> r <> 92 -> body (utf8_encode r).
Proof.
  intros r H N1 N2. apply body_plains.
  destruct (utf8_encode_cases r H) as [[R ->]|[[R ->]|[[R ->]|[R ->]]]]; repeat constructor; lia.
Qed.
Lemma body_one : forall st r, scalar r -> body (esc st r).
Proof.
  intros st r H. unfold esc. destruct (Z.ltb_spec r 0x80).
  - unfold escape_ascii. destruct ((r =? 34) || (r =? 92)) eqn:Q; [apply body_esc, body_nil|].
    assert (B : body [r]) by (apply body_plains; constructor; [lia|constructor]).
    destruct (r <? 32).
    + destruct (short_escape r) as [x|]; [|apply body_u]. destruct (js_short st r); [|apply body_u].
      apply body_esc, body_nil.
    + destruct (_ && _); [apply body_u|assumption].
  - unfold escape_rune. destruct (_ && _); [apply body_u|apply body_plain_rune; [assumption|lia..]].
Qed.
Lemma body_escs : forall st cs, Forall scalar cs -> body (flat_map (esc st) cs).
Proof.
  intros st cs F. induction F as [|r cs Hr F IH]; cbn [flat_map]; [constructor|].
  apply body_app; [now apply body_one|assumption].
Qed.

(** ** base64 *)
Lemma b64_val_char : forall d, 0 <= d < 64 ->
  b64_val (b64_char d) = Some d /\ b64_char d <> 13 /\ b64_char d <> 10 /\ b64_char d <> 61 /\ b64_char d <> 34.
Proof.
  intros d H. unfold b64_char.
  destruct (Z.ltb_spec d 26); [|destruct (Z.ltb_spec d 52); [|destruct (Z.ltb_spec d 62); [|destruct (Z.eqb_spec d 62)]]].
  - unfold b64_val. replace ((65 <=? 65 + d) && (65 + d <=? 90)) with true by lia.
    split; [f_equal; lia|lia].
  - unfold b64_val. replace ((65 <=? 97 + (d - 26)) && (97 + (d - 26) <=? 90)) with false by lia.
    replace ((97 <=? 97 + (d - 26)) && (97 + (d - 26) <=? 122)) with true by lia.
    split; [f_equal; lia|lia].
  - unfold b64_val. replace ((65 <=? 48 + (d - 52)) && (48 + (d - 52) <=? 90)) with false by lia.
    replace ((97 <=? 48 + (d - 52)) && (48 + (d - 52) <=? 122)) with false by lia.
    replace ((48 <=? 48 + (d - 52)) && (48 + (d - 52) <=? 57)) with true by lia.
    split; [f_equal; lia|lia].
  - subst. repeat split; lia || reflexivity.
  - replace d with 63 by lia. repeat split; lia || reflexivity.
Qed.
Lemma b64_step : forall d s q, 0 <= d < 64 -> (length q < 3)%nat ->
  b64_decode (b64_char d :: s) q = b64_decode s (q ++ [d]).
Proof.
  intros d s q H L. cbn [b64_decode].
  destruct (b64_val_char d H) as (V & N1 & N2 & N3 & _).
  replace ((b64_char d =? 13) || (b64_char d =? 10)) with false by lia.
  replace (b64_char d =? 61) with false by lia. cbn [andb]. rewrite V.
  destruct q as [|x [|y [|z [|? ?]]]]; cbn [length] in L; try lia; reflexivity.
Qed.
Lemma b64_step4 : forall d s x y z, 0 <= d < 64 ->
  b64_decode (b64_char d :: s) [x; y; z] =
  let '(r, ok) := b64_decode s [] in (x * 4 + y / 16 :: y mod 16 * 16 + z / 4 :: z mod 4 * 64 + d :: r, ok).
Proof.
  intros d s x y z H. cbn [b64_decode].
  destruct (b64_val_char d H) as (V & N1 & N2 & N3 & _).
  replace ((b64_char d =? 13) || (b64_char d =? 10)) with false by lia.
  replace (b64_char d =? 61) with false by lia. cbn [andb]. now rewrite V.
Qed.

Lemma bytes3_ind : forall P : bytes -> Prop, P [] -> (forall a, P [a]) -> (forall a b, P [a; b]) ->
  (forall a b c s, P s -> P (a :: b :: c :: s)) -> forall s, P s.
Proof.
  intros P H0 H1 H2 H3. assert (G : forall n s, (length s <= n)%nat -> P s).
  { induction n as [|n IH]; intros s L.
    - destruct s; [apply H0|cbn in L; lia].
    - destruct s as [|a [|b [|c s]]]; auto. apply H3, IH. cbn in L. lia. }
  intros s. apply (G (length s)). lia.
Qed.

Theorem b64_decode_encode : forall s, is_bytes s -> b64_decode (b64_encode s) [] = (s, true).
Proof.
  intros s. pattern s. apply bytes3_ind; clear s.
  - reflexivity.
  - intros a F. inversion F; subst. unfold is_byte in *. cbn [b64_encode].
    rewrite !b64_step by (cbn [length app]; lia). cbn [app b64_decode].
    cbn [Z.eqb Pos.eqb orb andb length Nat.leb Nat.ltb Nat.eqb b64_tail]. f_equal. f_equal. lia.
  - intros a b F. inversion F as [|? ? Ha F']; inversion F'; subst. unfold is_byte in *. cbn [b64_encode].
    rewrite !b64_step by (cbn [length app]; lia). cbn [app b64_decode].
    cbn [Z.eqb Pos.eqb orb andb length Nat.leb Nat.ltb Nat.eqb b64_tail]. repeat f_equal; lia.
  - intros a b c s IH F. inversion F as [|? ? Ha F']; inversion F' as [|? ? Hb F'']; inversion F''; subst.
    unfold is_byte in *. cbn [b64_encode].
    do 3 (rewrite b64_step by (cbn [length app]; lia)). cbn [app].
    rewrite b64_step4 by lia. rewrite IH by assumption. repeat f_equal; lia.
Qed.

Lemma b64_no_quote : forall s, is_bytes s -> Forall (fun c => c <> 34) (b64_encode s).
Proof.
  intros s. pattern s. apply bytes3_ind; clear s.
  - constructor.
  - intros a F. inversion F; subst. unfold is_byte in *. cbn [b64_encode].
    repeat (constructor; [try lia; apply b64_val_char; lia|]). constructor.
  - intros a b F. inversion F as [|? ? Ha F']; inversion F'; subst. unfold is_byte in *. cbn [b64_encode].
    repeat (constructor; [try lia; apply b64_val_char; lia|]). constructor.
  - intros a b c s IH F. inversion F as [|? ? Ha F']; inversion F' as [|? ? Hb F'']; inversion F''; subst.
    unfold is_byte in *. cbn [b64_encode].
    repeat (constructor; [try lia; apply b64_val_char; lia|]). now apply IH.
Qed.

Lemma b64_encode_app : forall n a b, length a = (3 * n)%nat -> b64_encode (a ++ b) = b64_encode a ++ b64_encode b.
Proof.
  induction n as [|n IH]; intros a b L.
  - destruct a; [reflexivity|cbn in L; lia].
  - destruct a as [|x [|y [|z a]]]; cbn [length] in L; try lia.
    cbn [app b64_encode]. rewrite IH by lia. reflexivity.
Qed.
