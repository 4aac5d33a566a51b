(** C52, C53. *)
From Coq Require Import ZArith List Bool Lia String.
From Coq Require Import ZifyBool.
From Verif Require Import Base Arith Gen Names.
Import ListNotations.
Open Scope Z_scope.
Open Scope list_scope.

Lemma beq_spec : forall a b, reflect (a = b) (beq a b).
Proof. intros a b. unfold beq. destruct (list_eq_dec Z.eq_dec a b); constructor; assumption. Qed.

(** ** C52 *)

Lemma label_inj : forall n a b, enum_label n a = enum_label n b -> a = b.
Proof. intros n a b E. unfold enum_label in E. apply app_inv_head in E. injection E. auto. Qed.
Lemma enum_String_in : forall n cs c z, NoDup (map snd cs) -> In (c, z) cs -> enum_String n cs z = enum_label n c.
Proof.
  intros n cs c z. induction cs as [|[c' z'] cs IH]; intros Nd H; [destruct H|].
  inversion Nd as [|? ? Ni Nd']; subst. cbn. destruct H as [E|H].
  - injection E; intros; subst. rewrite Z.eqb_refl. reflexivity.
  - destruct (Z.eqb_spec z z') as [->|]; [|auto].
    destruct Ni. apply (in_map snd) in H. exact H.
Qed.
Lemma enum_from_in : forall n cs c z, NoDup (map fst cs) -> In (c, z) cs -> enum_from n cs (enum_label n c) = z.
Proof.
  intros n cs c z. induction cs as [|[c' z'] cs IH]; intros Nd H; [destruct H|].
  inversion Nd as [|? ? Ni Nd']; subst. cbn. destruct H as [E|H].
  - injection E; intros; subst. destruct (beq_spec (enum_label n c) (enum_label n c)); congruence.
  - destruct (beq_spec (enum_label n c) (enum_label n c')) as [E|]; [|auto].
    apply label_inj in E. subst. destruct Ni. apply (in_map fst) in H. exact H.
Qed.

(** What the constants of an enum are worth: the first has its value or 0, another one its value
    or one more than the constant before it. *)
Definition worth (cs : list (bytes * option Z)) (vs : list (bytes * Z)) : Prop :=
  List.length vs = List.length cs /\
  forall i c o, nth_error cs i = Some (c, o) ->
    exists v, nth_error vs i = Some (c, v) /\
      match o, i with
      | Some d, _ => v = d
      | None, O => v = 0
      | None, S j => exists c' w, nth_error vs j = Some (c', w) /\ v = w + 1
      end.
Lemma enum_values_length : forall cs k, List.length (enum_values k cs) = List.length cs.
Proof. induction cs as [|[c [v|]] cs IH]; intro k; cbn; [reflexivity| |]; rewrite IH; reflexivity. Qed.
Lemma enum_values_nth : forall cs k i c o, nth_error cs i = Some (c, o) ->
  exists v, nth_error (enum_values k cs) i = Some (c, v) /\
    match o, i with
    | Some d, _ => v = d
    | None, O => v = k + 1
    | None, S j => exists c' w, nth_error (enum_values k cs) j = Some (c', w) /\ v = w + 1
    end.
Proof.
  induction cs as [|[c0 o0] cs IH]; intros k i c o H; [destruct i; discriminate|].
  destruct i as [|i].
  - injection H; intros; subst. destruct o as [d|]; cbn; eauto.
  - cbn in H. set (k' := match o0 with Some d => d | None => k + 1 end).
    replace (enum_values k ((c0, o0) :: cs)) with ((c0, k') :: enum_values k' cs) by (destruct o0; reflexivity).
    destruct (IH k' i c o H) as (v & E & V). exists v. split; [exact E|].
    destruct o as [d|]; [exact V|]. destruct i as [|j].
    + exists c0, k'. split; [reflexivity|exact V].
    + exact V.
Qed.

(** Every enum: the constants are worth what they should be; a declared constant prints as
    <Enum>_<Constant>, which reads back as the constant; another value prints as <UNSET>, which no
    constant does; another string reads as -10000. *)
Theorem C52_enum_strings : forall e vs, worth (e_consts e) vs ->
  NoDup (map fst (e_consts e)) -> NoDup (map snd vs) ->
  (forall c z, In (c, z) vs ->
     enum_to_string e z = type_go_name (e_name e) ++ lit "_" ++ c /\
     enum_from_string e (enum_to_string e z) = z) /\
  (forall z, ~ In z (map snd vs) -> enum_to_string e z = lit "<UNSET>") /\
  (forall z, In z (map snd vs) -> enum_to_string e z <> lit "<UNSET>") /\
  (forall s, (forall c, In c (map fst (e_consts e)) -> s <> type_go_name (e_name e) ++ lit "_" ++ c) ->
     enum_from_string e s = -10000).
Proof.
  intros e vs [Ln Wo] Nn Nv.
  assert (E : vs = enum_consts e).
  { unfold enum_consts. clear Nn Nv. set (cs := e_consts e) in *. clearbody cs. clear e.
    apply nth_ext with (d := ([], 0)) (d' := ([], 0)); [rewrite enum_values_length; exact Ln|].
    assert (G : forall i, (i < List.length cs)%nat -> nth_error vs i = nth_error (enum_values (-1) cs) i).
    { induction i as [|i IH]; intro L.
      - destruct (nth_error cs 0) as [[c o]|] eqn:N; [|apply nth_error_None in N; lia].
        destruct (Wo _ _ _ N) as (v & Ev & V). destruct (enum_values_nth cs (-1) _ _ _ N) as (w & Ew & W).
        rewrite Ev, Ew. destruct o; subst; reflexivity.
      - destruct (nth_error cs (S i)) as [[c o]|] eqn:N; [|apply nth_error_None in N; lia].
        destruct (Wo _ _ _ N) as (v & Ev & V). destruct (enum_values_nth cs (-1) _ _ _ N) as (w & Ew & W).
        rewrite Ev, Ew. destruct o; [congruence|].
        destruct V as (c1 & v1 & E1 & ->). destruct W as (c2 & v2 & E2 & ->).
        rewrite IH in E1 by lia. congruence. }
    intros i L. rewrite Ln in L. specialize (G i L).
    destruct (nth_error vs i) as [p|] eqn:N; [|apply nth_error_None in N; lia].
    erewrite nth_error_nth by exact N.
    erewrite nth_error_nth by (symmetry; exact G). reflexivity. }
  assert (Nf : NoDup (map fst (enum_consts e))).
  { assert (M : forall cs k, map fst (enum_values k cs) = map fst cs).
    { induction cs as [|[c [v|]] cs IH]; intro k; cbn; congruence. }
    unfold enum_consts. rewrite M. exact Nn. }
  assert (Fs : map fst (e_consts e) = map fst (enum_consts e)).
  { assert (M : forall cs k, map fst cs = map fst (enum_values k cs)).
    { induction cs as [|[c [v|]] cs IH]; intro k; cbn; [reflexivity| |]; f_equal; apply IH. }
    apply M. }
  subst vs. unfold enum_to_string, enum_from_string, type_go_name.
  set (n := publicize (e_name e)). set (cs := enum_consts e) in *. rewrite Fs. clearbody n cs. clear - Nv Nf.
  assert (L : forall c, n ++ lit "_" ++ c = enum_label n c) by reflexivity.
  split; [|split; [|split]].
  - intros c z H. rewrite (enum_String_in n cs c z Nv H). split; [reflexivity|].
    apply enum_from_in; assumption.
  - intros z H. induction cs as [|[c' z'] cs IH]; [reflexivity|]. cbn in *.
    destruct (Z.eqb_spec z z') as [->|]; [tauto|].
    inversion Nv; inversion Nf; subst. apply IH; auto.
  - intros z H. apply in_map_iff in H. destruct H as ([c z'] & <- & H). cbn.
    rewrite (enum_String_in n cs c z' Nv H). intro D.
    assert (I : In 95 (enum_label n c)) by (unfold enum_label; apply in_or_app; right; left; reflexivity).
    rewrite D in I. cbn in I. intuition discriminate.
  - intros s H. induction cs as [|[c' z'] cs IH]; [reflexivity|]. cbn in *.
    destruct (beq_spec s (enum_label n c')) as [->|]; [destruct (H c'); auto|].
    inversion Nv; inversion Nf; subst. apply IH; auto.
Qed.
Print Assumptions C52_enum_strings.
(** Value() gives the number of a constant, exactly if it fits into an int; the numbers Thrift allows (i32) always do. *)
Theorem C52_value : forall intw v, intw = 32 \/ intw = 64 ->
  (enum_value intw v = v <-> - 2 ^ (intw - 1) <= v < 2 ^ (intw - 1)) /\
  (- 2 ^ 31 <= v < 2 ^ 31 -> enum_value intw v = v).
Proof.
  intros intw v W. unfold enum_value.
  assert (G : wraps intw v = v <-> - 2 ^ (intw - 1) <= v < 2 ^ (intw - 1)).
  { split.
    - intro E. rewrite <- E. apply wraps_range. destruct W; lia.
    - intro V. apply wraps_id; [destruct W; lia|exact V]. }
  split; [exact G|]. intro V. apply G. destruct W as [-> | ->]; cbn in *; lia.
Qed.
Print Assumptions C52_value.
(** simple.thrift's HeterogeneousValues, as in the golden ttypes.go. *)
Definition hetero : enum :=
  MkEnum (lit "HeterogeneousValues") [(lit "One", None); (lit "Two", Some 2); (lit "Three", None); (lit "Four", Some 4)].
Example C52_case :
  let vs := [(lit "One", 0); (lit "Two", 2); (lit "Three", 3); (lit "Four", 4)] in
  worth (e_consts hetero) vs /\ NoDup (map fst (e_consts hetero)) /\ NoDup (map snd vs) /\
  enum_to_string hetero 3 = lit "HeterogeneousValues_Three" /\
  enum_from_string hetero (lit "HeterogeneousValues_Four") = 4 /\
  enum_to_string hetero 1 = lit "<UNSET>" /\ enum_from_string hetero (lit "Four") = -10000 /\
  enum_value 32 4 = 4 /\ enum_value 32 (2 ^ 31) = - 2 ^ 31.
Proof.
  cbn zeta. split.
  - split; [reflexivity|]. intros i c o H.
    destruct i as [|[|[|[|i]]]]; cbn in H; try (injection H; intros; subst); cbn; eauto 8.
    destruct i; discriminate.
  - repeat split; try (vm_compute; reflexivity); repeat constructor; cbn; intuition discriminate.
Qed.

(** ** C53 *)

(** The keywords of Go, from its specification. *)
Definition go_keywords : list bytes := map lit
  ["break"; "default"; "func"; "interface"; "select"; "case"; "defer"; "go"; "map"; "struct"; "chan"; "else";
   "goto"; "package"; "switch"; "const"; "fallthrough"; "if"; "range"; "type"; "continue"; "for"; "import";
   "return"; "var"]%string.
(** Identifiers of ASCII characters, in the IDL (where '.' is for qualified type names) and in Go. *)
Definition letter (c : Z) : Prop := 65 <= c <= 90 \/ 97 <= c <= 122.
Definition id_start (c : Z) : Prop := letter c \/ c = 95.
Definition id_char (c : Z) : Prop := id_start c \/ 48 <= c <= 57.
Definition ident (s : bytes) : Prop :=
  match s with [] => False | c :: s' => id_start c /\ Forall id_char s' end.
(** An exported name. *)
Definition exported (s : bytes) : Prop := match s with c :: _ => 65 <= c <= 90 | [] => False end.

Ltac chars := unfold id_char, id_start, letter, tolower, toupper, isalpha, isupper, islower in *.

Ltac idt := cbn -[id_start id_char];
  repeat match goal with
  | |- _ /\ _ => split | |- Forall _ (_ :: _) => apply Forall_cons | |- Forall _ [] => apply Forall_nil
  end; try discriminate; chars; lia.

Lemma publicize_head : forall s c t, publicize s = c :: t -> ~ (97 <= c <= 122).
Proof.
  intros [|a s] c t E; [discriminate|]. injection E; intros _ <-. chars.
  destruct (negb ((65 <=? a) && (a <=? 90))) eqn:U; [|lia].
  destruct ((97 <=? a) && (a <=? 122)) eqn:L; lia.
Qed.
Lemma keyword_head : forall k, In k go_keywords -> exists c t, k = c :: t /\ 97 <= c <= 122.
Proof.
  intros k H. unfold go_keywords in H. cbn [map In] in H.
  repeat (destruct H as [<-|H]; [eexists _, _; split; [reflexivity|split; discriminate]|]). destruct H.
Qed.
Lemma goname_not_keyword : forall s, ~ In (variable_name_to_go_name s) go_keywords.
Proof.
  intros s H. destruct s as [|c s]; [vm_compute in H; intuition discriminate|].
  unfold variable_name_to_go_name in H.
  destruct (existsb (beq (map tolower (c :: s))) (goname_words c)) eqn:X.
  - assert (L : last (map tolower (c :: s) ++ lit "_a1") 0 = 49).
    { generalize (map tolower (c :: s)). intro l. change (lit "_a1") with ([95; 97] ++ [49]).
      rewrite app_assoc. apply last_last. }
    revert H L. generalize (map tolower (c :: s) ++ lit "_a1"). intros k H L.
    unfold go_keywords in H. cbn [map In] in H.
    repeat (destruct H as [E|H]; [rewrite <- E in L; vm_compute in L; discriminate|]). destruct H.
  - assert (G : forall k, In k go_keywords ->
      existsb (beq (map tolower k)) (goname_words (hd 0 k)) = false -> False).
    { intros k Hk. unfold go_keywords in Hk. cbn [map In] in Hk.
      repeat (destruct Hk as [<-|Hk]; [vm_compute; discriminate|]). destruct Hk. }
    exact (G _ H X).
Qed.

(** No member, argument or type name is a keyword, whatever the IDL name is. *)
Theorem C53_no_keyword : forall s,
  ~ In (member_name s) go_keywords /\ ~ In (arg_name s) go_keywords /\ ~ In (type_go_name s) go_keywords.
Proof.
  assert (P : forall s, ~ In (publicize s) go_keywords).
  { intros s H. destruct (keyword_head _ H) as (c & t & E & L). exact (publicize_head s c t E L). }
  intro s. split; [apply P|]. split; [apply goname_not_keyword|apply P].
Qed.
Print Assumptions C53_no_keyword.

Lemma camel_cons : forall c d s, camel (c :: d :: s) =
  if (c =? 95) && isalpha d then toupper d :: camel s else c :: camel (d :: s).
Proof. reflexivity. Qed.
Lemma camel_ind : forall P : bytes -> Prop,
  P [] -> (forall c, P [c]) ->
  (forall c d s, (c =? 95) && isalpha d = true -> P s -> P (c :: d :: s)) ->
  (forall c d s, (c =? 95) && isalpha d = false -> P (d :: s) -> P (c :: d :: s)) ->
  forall s, P s.
Proof.
  intros P P0 P1 P2 P3 s.
  assert (G : forall n s, (List.length s <= n)%nat -> P s).
  { induction n as [|n IH]; intros [|c [|d s']] L; auto; cbn in L; try lia.
    destruct ((c =? 95) && isalpha d) eqn:E; [apply P2|apply P3]; auto; apply IH; cbn; lia. }
  apply (G (List.length s)). auto.
Qed.
Lemma camel_chars : forall s, Forall id_char s -> Forall id_char (camel s).
Proof.
  intro s. pattern s. apply camel_ind; clear s; [|intro c|intros c d s E IH|intros c d s E IH]; intro H; auto; rewrite camel_cons, E;
    inversion H as [|? ? Hc H']; subst.
  - inversion H' as [|? ? Hd H'']; subst. constructor; [|auto]. clear - Hd. chars.
    destruct ((97 <=? d) && (d <=? 122)) eqn:L; lia.
  - constructor; auto.
Qed.
Lemma publicize_ident : forall s, ident s -> ident (publicize s).
Proof.
  intros [|c s] H; [destruct H|]. destruct H as [Hc Hs]. cbn [publicize ident]. split; [|apply camel_chars; exact Hs]. clear - Hc. chars.
  destruct (negb ((65 <=? c) && (c <=? 90))) eqn:U; [|lia]. destruct ((97 <=? c) && (c <=? 122)) eqn:L; lia.
Qed.
Lemma goname_ident : forall s, ident s -> ident (variable_name_to_go_name s).
Proof.
  intros [|c s] H; [destruct H|]. destruct H as [Hc Hs]. unfold variable_name_to_go_name.
  destruct (existsb _ _); [|split; assumption]. cbn [map app ident]. split.
  - clear - Hc. chars. destruct ((65 <=? c) && (c <=? 90)) eqn:U; lia.
  - apply Forall_app. split.
    + apply Forall_map. eapply Forall_impl; [|exact Hs]. intros d Hd. clear - Hd. chars.
      destruct ((65 <=? d) && (d <=? 90)) eqn:U; lia.
    + change (lit "_a1") with [95; 97; 49]. repeat constructor; chars; lia.
Qed.
(** Names made from identifiers are identifiers. *)
Theorem C53_valid : forall s, ident s -> ident (member_name s) /\ ident (arg_name s) /\ ident (type_go_name s).
Proof.
  intros s H. split; [apply publicize_ident, goname_ident, H|].
  split; [apply goname_ident, H|apply publicize_ident, H].
Qed.
Print Assumptions C53_valid.

(** Member and type names of IDL names that start with a letter are exported.
    Missing: names that start with an underscore, below. *)
Theorem C53_exported_partial : forall c s, letter c ->
  exported (member_name (c :: s)) /\ exported (type_go_name (c :: s)).
Proof.
  assert (P : forall c s, letter c -> exported (publicize (c :: s))).
  { intros c s H. cbn. chars. destruct (negb ((65 <=? c) && (c <=? 90))) eqn:U; [|lia].
    destruct ((97 <=? c) && (c <=? 122)) eqn:L; lia. }
  intros c s H. split; [|apply P, H]. unfold member_name, variable_name_to_go_name.
  destruct (existsb _ _); [|apply P, H]. cbn [map app]. apply P. clear - H. chars.
  destruct ((65 <=? c) && (c <=? 90)) eqn:U; lia.
Qed.
Print Assumptions C53_exported_partial.
Theorem C53_exported_refuted : exists s, ident s /\ ~ exported (member_name s) /\ ~ exported (type_go_name s).
Proof.
  exists (lit "_id"). split; [idt|].
  split; vm_compute; intros [H1 H2]; apply H2; reflexivity.
Qed.
Print Assumptions C53_exported_refuted.

(** Reading a public name back when the IDL name had no upper case letter. *)
Fixpoint uncamel (s : bytes) : bytes :=
  match s with [] => [] | c :: s' => if isupper c then 95 :: tolower c :: uncamel s' else c :: uncamel s' end.
Definition no_upper (s : bytes) : Prop := Forall (fun c => ~ (65 <= c <= 90)) s.
Lemma uncamel_camel : forall s, no_upper s -> uncamel (camel s) = s.
Proof.
  intro s. pattern s. apply camel_ind; clear s; [|intro c|intros c d s E IH|intros c d s E IH]; intro H; auto.
  - cbn. inversion H; subst. unfold isupper. destruct ((65 <=? c) && (c <=? 90)) eqn:U; [lia|reflexivity].
  - rewrite camel_cons, E. inversion H as [|? ? Hc H']; inversion H' as [|? ? Hd H'']; subst.
    apply andb_true_iff in E. destruct E as [E1 E2]. apply Z.eqb_eq in E1. subst c.
    cbn [uncamel]. rewrite (IH H''). chars.
    assert (L : (97 <=? d) && (d <=? 122) = true) by lia. rewrite L.
    assert (U : (65 <=? d - 32) && (d - 32 <=? 90) = true) by lia. rewrite U. f_equal. f_equal. lia.
  - rewrite camel_cons, E. inversion H as [|? ? Hc H']; subst. cbn [uncamel].
    assert (U : isupper c = false) by (unfold isupper; lia). rewrite U, (IH H'). reflexivity.
Qed.
Lemma publicize_inj : forall a b, no_upper a -> no_upper b -> publicize a = publicize b -> a = b.
Proof.
  intros [|c s] [|d t] Ha Hb E; try reflexivity; try discriminate.
  inversion Ha; inversion Hb; subst. cbn in E. injection E; intros E2 E1.
  apply (f_equal uncamel) in E2. rewrite !uncamel_camel in E2 by assumption. subst. f_equal. chars.
  destruct (negb ((65 <=? c) && (c <=? 90))) eqn:U; [|lia]. destruct (negb ((65 <=? d) && (d <=? 90))) eqn:V; [|lia].
  destruct ((97 <=? c) && (c <=? 122)) eqn:U1; destruct ((97 <=? d) && (d <=? 122)) eqn:V1; lia.
Qed.
Lemma no_upper_lower : forall s, no_upper s -> map tolower s = s.
Proof.
  induction s as [|c s IH]; intro H; [reflexivity|]. inversion H; subst. cbn. rewrite IH by assumption. f_equal.
  chars. destruct ((65 <=? c) && (c <=? 90)) eqn:U; lia.
Qed.
Definition reserved (s : bytes) : Prop := In s (lit "error" :: go_keywords).
Lemma goname_cases : forall s,
  (variable_name_to_go_name s = s /\ ~ reserved (map tolower s)) \/
  (variable_name_to_go_name s = map tolower s ++ lit "_a1" /\ reserved (map tolower s)).
Proof.
  intros [|c s]; [left; split; [reflexivity|]; intro H; vm_compute in H; intuition discriminate|].
  unfold variable_name_to_go_name. destruct (existsb (beq (map tolower (c :: s))) (goname_words c)) eqn:X.
  - right. split; [reflexivity|]. apply existsb_exists in X. destruct X as (w & Hw & E).
    destruct (beq_spec (map tolower (c :: s)) w) as [->|]; [|discriminate]. clear E.
    revert Hw. unfold goname_words, reserved, go_keywords.
    repeat match goal with |- In _ (if ?b then _ else _) -> _ => destruct b end; cbn [map In]; tauto.
  - left. split; [reflexivity|]. intro H. unfold reserved, go_keywords in H. cbn [map In] in H.
    assert (K : forall k d t, k = d :: t -> k = tolower c :: map tolower s ->
      existsb (beq k) (goname_words d) = true -> existsb (beq k) (goname_words (d - 32)) = true ->
      97 <= d <= 122 -> False).
    { intros k d t -> E X1 X2 L. injection E; intros E1 E2.
      change (map tolower (c :: s)) with (tolower c :: map tolower s) in X. rewrite <- E in X.
      chars. destruct ((65 <=? c) && (c <=? 90)) eqn:U.
      - replace c with (d - 32) in X by lia. rewrite X2 in X. discriminate.
      - replace c with d in X by lia. rewrite X1 in X. discriminate. }
    repeat (destruct H as [E|H];
      [eapply K; [reflexivity|exact E|vm_compute; reflexivity|vm_compute; reflexivity|split; discriminate]|]).
    destruct H.
Qed.

(** Distinct member names without upper case letters get distinct Go names, unless one of them is
    a reserved word followed by _a1.  Missing: names with upper case letters, below. *)
Theorem C53_distinct_partial : forall a b, no_upper a -> no_upper b -> a <> b ->
  (forall k, reserved k -> a <> k ++ lit "_a1" /\ b <> k ++ lit "_a1") ->
  member_name a <> member_name b.
Proof.
  intros a b Ha Hb N K E. apply publicize_inj in E.
  - pose proof (no_upper_lower a Ha) as La. pose proof (no_upper_lower b Hb) as Lb.
    destruct (goname_cases a) as [[Ea Ra]|[Ea Ra]], (goname_cases b) as [[Eb Rb]|[Eb Rb]];
      rewrite Ea, Eb in E; rewrite ?La, ?Lb in *.
    + congruence.
    + destruct (K b Rb). congruence.
    + destruct (K a Ra). congruence.
    + apply app_inv_tail in E. congruence.
  - destruct (goname_cases a) as [[-> _]|[-> _]]; [assumption|]. rewrite no_upper_lower by assumption.
    apply Forall_app. split; [assumption|]. repeat constructor; cbn; lia.
  - destruct (goname_cases b) as [[-> _]|[-> _]]; [assumption|]. rewrite no_upper_lower by assumption.
    apply Forall_app. split; [assumption|]. repeat constructor; cbn; lia.
Qed.
Print Assumptions C53_distinct_partial.

Lemma camel_plain : forall s, ~ In 95 s -> camel s = s.
Proof.
  intro s. pattern s. apply camel_ind; clear s; [|intro c|intros c d s E IH|intros c d s E IH]; intro H; auto.
  - apply andb_true_iff in E. destruct E as [E _]. apply Z.eqb_eq in E. subst. destruct H. left. reflexivity.
  - rewrite camel_cons, E, IH; [reflexivity|]. intro I. apply H. right. exact I.
Qed.
(** So do names without underscores whose first letters are both lower case or both upper case and
    that are, up to case, no reserved words. *)
Theorem C53_distinct_camel_partial : forall a b, ~ In 95 a -> ~ In 95 b -> a <> b ->
  ~ reserved (map tolower a) -> ~ reserved (map tolower b) ->
  ((forall c, hd_error a = Some c -> 97 <= c <= 122) /\ (forall c, hd_error b = Some c -> 97 <= c <= 122) \/
   (forall c, hd_error a = Some c -> 65 <= c <= 90) /\ (forall c, hd_error b = Some c -> 65 <= c <= 90)) ->
  member_name a <> member_name b.
Proof.
  intros a b Ha Hb N Ra Rb Fst E. unfold member_name in E.
  destruct (goname_cases a) as [[Ea _]|[_ ?]]; [|tauto]. destruct (goname_cases b) as [[Eb _]|[_ ?]]; [|tauto].
  rewrite Ea, Eb in E. apply N.
  destruct a as [|c s], b as [|d t]; try reflexivity; try discriminate. cbn in E, Ha, Hb, Fst.
  rewrite !camel_plain in E by tauto. injection E; intros E2 E1. subst. f_equal. chars.
  destruct Fst as [[F1 F2]|[F1 F2]]; specialize (F1 _ eq_refl); specialize (F2 _ eq_refl).
  - replace (negb ((65 <=? c) && (c <=? 90))) with true in E1 by lia.
    replace (negb ((65 <=? d) && (d <=? 90))) with true in E1 by lia.
    replace ((97 <=? c) && (c <=? 122)) with true in E1 by lia.
    replace ((97 <=? d) && (d <=? 122)) with true in E1 by lia. lia.
  - replace (negb ((65 <=? c) && (c <=? 90))) with false in E1 by lia.
    replace (negb ((65 <=? d) && (d <=? 90))) with false in E1 by lia. lia.
Qed.
Print Assumptions C53_distinct_camel_partial.

(** Otherwise names clash: through underscores, the first letter, the case of a reserved word, and
    through the suffix for reserved words. *)
Theorem C53_distinct_refuted : exists l, l <> [] /\ Forall (fun p =>
  ident (fst p) /\ ident (snd p) /\ fst p <> snd p /\ member_name (fst p) = member_name (snd p)) l.
Proof.
  exists [(lit "user_id", lit "userId"); (lit "name", lit "Name"); (lit "goto", lit "goTo"); (lit "type", lit "typeA1")].
  split; [discriminate|].
  repeat (apply Forall_cons; [cbn [fst snd]; split; [idt|]; split; [idt|]; split; [discriminate|reflexivity]|]).
  apply Forall_nil.
Qed.
Print Assumptions C53_distinct_refuted.

Lemma camel_suffix : forall s, ~ In 95 s -> camel (s ++ lit "_a1") = s ++ lit "A1".
Proof.
  induction s as [|c s IH]; intro H; [reflexivity|].
  assert (E : camel ((c :: s) ++ lit "_a1") = c :: camel (s ++ lit "_a1")).
  { cbn [app]. destruct (s ++ lit "_a1") as [|d t] eqn:Es; [destruct s; discriminate|].
    rewrite camel_cons. replace (c =? 95) with false; [reflexivity|]. symmetry. apply Z.eqb_neq.
    intros ->. apply H. left. reflexivity. }
  rewrite E, IH; [reflexivity|]. intro I. apply H. right. exact I.
Qed.
Lemma reserved_plain : forall s, reserved (map tolower s) -> ~ In 95 s.
Proof.
  intros s R I. assert (I2 : In 95 (map tolower s)) by (change 95 with (tolower 95); apply in_map, I).
  revert R I2. generalize (map tolower s). intros w R. unfold reserved, go_keywords in R. cbn [map In] in R.
  repeat (destruct R as [<-|R]; [vm_compute; intuition discriminate|]). destruct R.
Qed.
(** A client takes a received exception from the member the result struct has, except when its
    name is, up to case, a reserved word. *)
Theorem C53_exception_member : forall s,
  recv_exception_member s = member_name s <-> ~ reserved (map tolower s).
Proof.
  intro s. unfold recv_exception_member, member_name.
  destruct (goname_cases s) as [[-> N]|[-> R]]; [tauto|]. split; [|tauto]. intros E _.
  pose proof (reserved_plain s R) as P.
  assert (P2 : ~ In 95 (map tolower s)) by (intro I; apply in_map_iff in I; destruct I as (c & Ec & Ic);
    apply P; replace 95 with c; [exact Ic|]; revert Ec; chars; destruct ((65 <=? c) && (c <=? 90)) eqn:X; lia).
  destruct s as [|c s]; [vm_compute in R; intuition discriminate|].
  apply (f_equal (@List.length Z)) in E. cbn [publicize map app] in E. cbn [List.length] in E.
  rewrite camel_plain in E by (intro I; apply P; right; exact I).
  rewrite camel_suffix in E by (intro I; apply P2; right; exact I).
  rewrite app_length, map_length in E. cbn in E. lia.
Qed.
Print Assumptions C53_exception_member.

(** The client code assigns a received exception to its IDL name, which may be a keyword; and takes
    it from a member of another name. *)
Theorem C53_exception_keyword_refuted : exists s, ident s /\
  In (recv_exception_name s) go_keywords /\ recv_exception_member s <> member_name s.
Proof.
  exists (lit "type"). split; [idt|].
  split; [vm_compute; tauto|vm_compute; discriminate].
Qed.
Print Assumptions C53_exception_keyword_refuted.

Example C53_case :
  ident (lit "optional_fourth") /\ member_name (lit "optional_fourth") = lit "OptionalFourth" /\
  member_name (lit "type") = lit "TypeA1" /\ arg_name (lit "Range") = lit "range_a1" /\
  no_upper (lit "optional_fourth") /\ no_upper (lit "optional_fifth") /\
  (forall k, reserved k -> lit "optional_fourth" <> k ++ lit "_a1" /\ lit "optional_fifth" <> k ++ lit "_a1") /\
  privatize (lit "EchoBool") = lit "echoBool" /\
  recv_exception_member (lit "not_found") = lit "NotFound".
Proof.
  split; [idt|].
  split; [reflexivity|]. split; [reflexivity|]. split; [reflexivity|].
  split; [unfold no_upper; idt|]. split; [unfold no_upper; idt|].
  split; [|split; reflexivity].
  intros k _. split; intro E; apply (f_equal (fun l => last l 0)) in E;
    change (lit "_a1") with ([95; 97] ++ [49]) in E; rewrite app_assoc, last_last in E; vm_compute in E; discriminate.
Qed.
