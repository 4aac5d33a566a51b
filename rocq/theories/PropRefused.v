(** C100: data the type of a container refuses. *)
From Coq Require Import ZArith List Bool Lia.
From Coq Require Import ZifyBool ZifyNat.
From Verif Require Import Base Arith F64 Strconv TField GoVal Compare CompareProofs CoerceProofs TList TSet TMap PropContainers.
Import ListNotations.
Open Scope Z_scope.

(** What has neither a number nor a text: containers and values of other Go types without String(). *)
Definition mute (d : any) : Prop :=
  match d with AList _ _ _ | ASet _ _ _ _ | AMap _ _ _ _ _ _ | AOther _ _ => True | _ => False end.
(** The text of strings, enums, type ids, structs and other values with String(). *)
Definition says_text (d : any) (s : bytes) : Prop :=
  match d with
  | AStr t | AEnum _ _ t | AStringer _ t | AStruct _ t _ _ => s = t
  | ATType t => s = TType_String t
  | _ => False
  end.
(** The data refused, by type: containers by the scalar types; bytes by the integers; texts of numbers by the number
    types (their test of the error is the wrong way round, C63); everything but their own kind by MAP, LIST and SET. *)
Inductive unfit (x : ext) : Z -> any -> Prop :=
| u_mute t d : In t [BOOL; BYTE; DOUBLE; I16; I32; I64; STRING; UTF8; UTF16; BINARY] -> mute d -> unfit x t d
| u_bytes t b : In t [I16; I32; I64] -> unfit x t (ABytes b)
| u_number t d s z : In t [BYTE; I16; I32; I64] -> says_text d s -> decimal s z -> in_s 64 z -> unfit x t d
| u_float d s v : says_text d s -> x_parse_float x s = (v, None) -> unfit x DOUBLE d
| u_map d : d <> ANil -> (forall a kt vt n l b, d <> AMap a kt vt n l b) -> unfit x MAP d
| u_list d : d <> ANil -> (forall a et l, d <> AList a et l) -> unfit x LIST d
| u_set d : d <> ANil -> (forall a et n l, d <> ASet a et n l) -> unfit x SET d.

Definition known (t : Z) : Prop :=
  In t [STOP; VOID; BOOL; BYTE; DOUBLE; I16; I32; I64; STRING; UTF8; UTF16; BINARY; STRUCT; MAP; LIST; SET].

Lemma text_case : forall (conv : Z -> any) zero s,
  snd (match ParseInt s 64 with (i, Some _) => (conv i, true) | (_, None) => (zero, false) end) = false <->
  exists z, decimal s z /\ in_s 64 z.
Proof.
  intros conv zero s. destruct (ParseInt s 64) as [z [e|]] eqn:E; cbn [snd]; split; try discriminate; try reflexivity.
  - intros (z' & D & R). assert (ParseInt s 64 = (z', None)) by (apply ParseInt_spec; [lia|auto]). congruence.
  - intros _. exists z. apply ParseInt_spec; [lia|exact E].
Qed.

Lemma text_unfit : forall x t d s, In t [BYTE; I16; I32; I64] -> says_text d s ->
  ((exists z, decimal s z /\ in_s 64 z) <-> unfit x t d).
Proof.
  intros x t d s Ht Hd. split.
  - intros (z & D & R). eapply u_number; eauto.
  - intros U. assert (Fn : forall s', says_text d s' -> s' = s) by (destruct d; cbn in *; intros; try contradiction; congruence).
    inversion U as [? ? _ M|? ? _|? ? s' z _ T D R|? s' v T|? _ _|? _ _|? _ _]; subst;
      try (destruct d; contradiction); try (cbn in Ht; intuition discriminate); try contradiction.
    rewrite <- (Fn s' T). eauto.
Qed.
Ltac not_in := match goal with H : In _ _ |- _ => solve [cbn in H; repeat (destruct H as [H|H]; [discriminate H|]); destruct H] end.
Ltac accepted := split; [discriminate|];
  let U := fresh in intros U; inversion U; subst; first [not_in|contradiction|congruence].
Ltac refused := split; [intros _|reflexivity];
  first [apply u_mute; [cbn; tauto|exact I]|apply u_bytes; cbn; tauto|apply u_map|apply u_list|apply u_set]; discriminate.

(** Every datum is accepted or refused, and refused exactly if unfit. *)
Theorem C100_refused_iff : forall x t d, known t ->
  exists c ok, CoerceData x t d = Ok (c, ok) /\ (ok = false <-> unfit x t d).
Proof.
  intros x t d K. unfold known in K. cbn [In] in K.
  assert (P : forall r : any * bool, (snd r = false <-> unfit x t d) ->
    exists c ok, Ok r = Ok (c, ok) /\ (ok = false <-> unfit x t d)).
  { intros [c ok] H. exists c, ok. split; [reflexivity|exact H]. }
  assert (PI : forall bits conv, In t [I16; I32; I64] -> d <> ANil -> snd (coerce_int x bits conv d) = false <-> unfit x t d).
  { intros bits conv Ht Nd.
    destruct d; cbn [coerce_int as_integer coerce_text as_stringer snd];
      try (rewrite text_case; apply text_unfit; [right; exact Ht|reflexivity]); try congruence.
    all: try (split; [intros _|reflexivity]; first [apply u_mute; [cbn in Ht |- *; tauto|exact I]|apply u_bytes; exact Ht]).
    all: split; [discriminate|]; intros U; inversion U; subst; first [contradiction|congruence|cbn in Ht; intuition discriminate]. }
  assert (D : d = ANil \/ d <> ANil) by (destruct d; auto; right; discriminate).
  destruct D as [->|N].
  { assert (Nil : ~ unfit x t ANil) by (intros U; inversion U; subst; first [contradiction|congruence]).
    exists (match coerce_nil t with Ok (c, _) => c | _ => ANil end), true.
    split; [|split; [discriminate|intros U; destruct (Nil U)]].
    repeat (destruct K as [<-|K]; [reflexivity|]). destruct K. }
  Ltac as_is f := match goal with |- exists c ok, CoerceData ?x ?t ?d = _ /\ _ =>
    replace (CoerceData x t d) with (Ok f : outcome (any * bool)) by (destruct d; congruence || reflexivity) end.
  repeat (destruct K as [<-|K]; [|]); [..|destruct K].
  - as_is (ANil, true). apply P. cbn [snd]. accepted.
  - as_is (ANil, true). apply P. cbn [snd]. accepted.
  - as_is (coerce_bool d). apply P.
    destruct d; cbn [coerce_bool as_stringer snd]; try congruence; first [refused|accepted].
  - as_is (coerce_byte x d). apply P.
    destruct d; cbn [coerce_byte as_integer coerce_text as_stringer snd]; try congruence;
      try (rewrite text_case; apply text_unfit; [cbn; tauto|reflexivity]); first [refused|accepted].
  - as_is (coerce_double x d). apply P.
    assert (T : forall s, says_text d s ->
      snd (match x_parse_float x s with (v, Some _) => (AF64 v, true) | (_, None) => (AF64 0, false) end) = false <->
      unfit x DOUBLE d).
    { intros s Hs. destruct (x_parse_float x s) as [v [e|]] eqn:E; cbn [snd]; split; try discriminate; try reflexivity.
      - assert (Fn : forall s', says_text d s' -> s' = s) by (destruct d; cbn in *; intros; try contradiction; congruence).
        intros U. inversion U as [? ? _ M| | |? s' v' T' E'| | |]; subst; try not_in.
        + destruct d; contradiction.
        + rewrite (Fn s' T') in E'. congruence.
      - intros _. eapply u_float; eauto. }
    destruct d; cbn [coerce_double as_integer as_stringer snd] in *; try congruence;
      try (apply T; reflexivity); first [refused|accepted].
  - as_is (coerce_int x 16 AInt16 d). apply P, PI; [cbn; tauto|exact N].
  - as_is (coerce_int x 32 AInt32 d). apply P, PI; [cbn; tauto|exact N].
  - as_is (coerce_int x 64 AInt64 d). apply P, PI; [cbn; tauto|exact N].
  - as_is (match text_of x d with Some s => (AStr s, true) | None => (AStr [], false) end). apply P.
    destruct d; cbn [text_of as_stringer snd]; try congruence; first [refused|accepted].
  - as_is (match text_of x d with Some s => (AStr s, true) | None => (AStr [], false) end). apply P.
    destruct d; cbn [text_of as_stringer snd]; try congruence; first [refused|accepted].
  - as_is (match text_of x d with Some s => (AStr s, true) | None => (AStr [], false) end). apply P.
    destruct d; cbn [text_of as_stringer snd]; try congruence; first [refused|accepted].
  - as_is (match text_of x d with Some s => (ABytes s, true) | None => (AStr [], false) end). apply P.
    destruct d; cbn [text_of as_stringer snd]; try congruence; first [refused|accepted].
  - as_is (match d with AStruct _ _ _ _ => d | _ => NewTStructEmpty end, true). apply P. cbn [snd]. accepted.
  - as_is (match d with AMap _ _ _ _ _ _ => (d, true) | _ => (NewTMapDefault, false) end). apply P.
    destruct d; cbn [snd]; try congruence; first [refused|accepted].
  - as_is (match d with AList _ _ _ => (d, true) | _ => (NewTListDefault, false) end). apply P.
    destruct d; cbn [snd]; try congruence; first [refused|accepted].
  - as_is (match d with ASet _ _ _ _ => (d, true) | _ => (NewTSetDefault, false) end). apply P.
    destruct d; cbn [snd]; try congruence; first [refused|accepted].
Qed.
Print Assumptions C100_refused_iff.

Lemma refused : forall x t d, known t -> unfit x t d ->
  (exists c, CoerceData x t d = Ok (c, false)) /\ is_nil d = false /\ IsEmptyType t = false /\
  (t =? STOP) || (t =? VOID) = false.
Proof.
  intros x t d K U. destruct (C100_refused_iff x t d K) as (c & ok & E & [_ H]). rewrite (H U) in E.
  split; [eauto|]. clear E H K. destruct U as [t d Ht M|t b Ht|t d s z Ht T|d s v T|d N _|d N _|d N _];
    try (cbn in Ht; repeat (destruct Ht as [<-|Ht]; [repeat split; destruct d; reflexivity || contradiction|]); destruct Ht);
    try (cbn in Ht; repeat (destruct Ht as [<-|Ht]; [repeat split; reflexivity|]); destruct Ht);
    (split; [destruct d; reflexivity || contradiction || congruence|split; reflexivity]).
Qed.

(** A list: Push and Set leave it as it is, whatever the position; Contains does not find the datum. *)
Theorem C100_list : forall x f et l d, known et -> unfit x et d -> let p := MkTl et l in
  tl_Push x p d = Ok p /\ (forall i, tl_Set x p i d = Ok p) /\
  tl_indexOf x f p d = Ok (-1) /\ tl_Contains x f p d = Ok false.
Proof.
  intros x f et l d K U p. destruct (refused x et d K U) as ((c & E) & N & Et & _).
  unfold tl_Contains, tl_indexOf, tl_Push, tl_Set, tl_settype, p. cbn [tl_et tl_l]. rewrite Et, E, N. cbn [obind negb].
  rewrite orb_true_r. repeat split.
Qed.
Print Assumptions C100_list.

(** A set: Add and Remove leave it as it is, Contains does not find the datum. *)
Theorem C100_set : forall x f et n l d, known et -> unfit x et d -> let p := MkTs et n l in
  ts_Add x f p d = Ok p /\ ts_Remove x f p d = Ok p /\ ts_Contains x f p d = Ok false.
Proof.
  intros x f et n l d K U p. destruct (refused x et d K U) as ((c & E) & N & _).
  unfold ts_Add, ts_Remove, ts_Contains, ts_find, p. cbn [ts_et ts_l]. rewrite E, N. cbn [obind negb].
  rewrite orb_true_r. cbn [obind]. repeat split.
Qed.
Print Assumptions C100_set.

(** A map: a refused key is not set and not found; with a refused value no key is set. *)
Theorem C100_map : forall x f kt vt n l b, known kt -> known vt -> IsEmptyType kt = false ->
  let p := MkTm kt vt n l b in
  (forall k v, unfit x kt k ->
     tm_Set x f p k v = Ok p /\ tm_Get x f p k = Ok (ANil, false) /\ tm_Contains x f p k = Ok false) /\
  (forall k v, unfit x vt v -> tm_Set x f p k v = Ok p).
Proof.
  intros x f kt vt n l b Kk Kv Ek p. unfold tm_Set, tm_Get, tm_Contains, p. cbn [tm_kt tm_vt tm_size tm_l tm_b].
  assert (Es : (kt =? STOP) || (kt =? VOID) = false) by (clear - Kk Ek; unfold known in Kk; cbn [In] in Kk;
    repeat (destruct Kk as [<-|Kk]; [reflexivity || discriminate|]); destruct Kk).
  split.
  - intros k v U. destruct (refused x kt k Kk U) as ((c & E) & N & _). rewrite Es, Ek, E, N. cbn [obind negb].
    repeat split.
  - intros k v U. destruct (refused x vt v Kv U) as ((c & E) & _ & _ & Ev). rewrite Es, Ev.
    destruct (C100_refused_iff x kt k Kk) as (ck & ok & -> & _). cbn [obind]. rewrite E. cbn [obind negb].
    destruct ok; reflexivity.
Qed.
Print Assumptions C100_map.

(** nil is found exactly where it is an element (BINARY keeps nil), and Remove takes the first away. *)
Lemma find_nil : forall l i, (~ In ANil l /\ find_idx (fun v => Ok (is_nil v)) l i = Ok (-1)) \/
  exists a b, l = a ++ ANil :: b /\ ~ In ANil a /\ find_idx (fun v => Ok (is_nil v)) l i = Ok (i + Z.of_nat (length a)).
Proof.
  induction l as [|v l IH]; intros i; [left; split; [intros []|reflexivity]|]. cbn [find_idx obind].
  destruct (is_nil v) eqn:N.
  - right. exists [], l. destruct v; try discriminate. split; [reflexivity|]. split; [intros []|]. cbn [length]. f_equal. lia.
  - assert (Nv : v <> ANil) by (destruct v; discriminate).
    destruct (IH (i + 1)) as [[Q ->]|(a & b & -> & Q & ->)].
    + left. split; [|reflexivity]. intros [H|H]; [exact (Nv H)|exact (Q H)].
    + right. exists (v :: a), b. split; [reflexivity|]. split; [intros [H|H]; [exact (Nv H)|exact (Q H)]|].
      f_equal. cbn [length]. lia.
Qed.
Theorem C100_nil : forall x f et n l,
  (exists b, tl_Contains x f (MkTl et l) ANil = Ok b /\ (b = true <-> In ANil l)) /\
  (exists b, ts_Contains x f (MkTs et n l) ANil = Ok b /\ (b = true <-> In ANil l)) /\
  exists l', ts_Remove x f (MkTs et n l) ANil = Ok (MkTs et n l') /\
    ((~ In ANil l /\ l' = l) \/ exists a b, l = a ++ ANil :: b /\ ~ In ANil a /\ l' = a ++ b).
Proof.
  intros x f et n l. unfold tl_Contains, ts_Contains, ts_Remove, tl_indexOf, ts_find. cbn [is_nil tl_l ts_l ts_et ts_size].
  destruct (find_nil l 0) as [[Q ->]|(a & b & -> & Q & ->)]; cbn [obind].
  - split; [eexists; split; [reflexivity|]; split; [discriminate|contradiction]|].
    split; [eexists; split; [reflexivity|]; split; [discriminate|contradiction]|].
    exists l. split; [reflexivity|]. left. auto.
  - assert (Hin : In ANil (a ++ ANil :: b)) by (apply in_or_app; right; left; reflexivity).
    replace (0 + Z.of_nat (length a) =? -1) with false by lia.
    split; [eexists; split; [reflexivity|]; split; [auto|lia]|].
    split; [eexists; split; [reflexivity|]; split; [auto|reflexivity]|].
    exists (a ++ b). split; [|right; exists a, b; auto]. f_equal. f_equal.
    replace (Z.to_nat (0 + Z.of_nat (length a))) with (length a) by lia. clear.
    induction a as [|v a IH]; [reflexivity|]. cbn [length app remove_at]. rewrite IH. reflexivity.
Qed.
Print Assumptions C100_nil.

Example C100_ex :
  unfit ext0 I32 (AStr [52; 50]) /\ unfit ext0 I64 (ABytes [1]) /\ unfit ext0 STRING (AList 1 I32 []) /\
  unfit ext0 SET (AInt32 5) /\ known SET /\ ~ unfit ext0 I32 (AStr [120]) /\ ~ unfit ext0 STRING (AInt32 5) /\
  tl_Push ext0 (MkTl I32 [AInt32 42]) (AStr [52; 50]) = Ok (MkTl I32 [AInt32 42]) /\
  tl_Contains ext0 3 (MkTl I32 [AInt32 42]) (AStr [52; 50]) = Ok false /\
  tl_Push ext0 (MkTl I32 [AInt32 42]) (AStr [120]) = Ok (MkTl I32 [AInt32 42; AInt32 0]) /\
  tm_Set ext0 3 (MkTm STRING I32 0 [] []) (AStr [97]) (AStr [52; 50]) = Ok (MkTm STRING I32 0 [] []) /\
  (exists p, ts_Add ext0 3 (NewTSet BINARY 0) ANil = Ok p /\ ts_l p = [ANil] /\ ts_Contains ext0 3 p ANil = Ok true).
Proof.
  assert (D : decimal [52; 50] 42) by (apply (proj1 (ParseInt_spec [52; 50] 64 42 ltac:(lia))); vm_compute; reflexivity).
  split; [eapply u_number; [cbn; tauto|reflexivity|exact D|unfold in_s; lia]|].
  split; [apply u_bytes; cbn; tauto|]. split; [apply u_mute; [cbn; tauto|exact I]|].
  split; [apply u_set; discriminate|]. split; [cbn; tauto|].
  split.
  { intros U. destruct (C100_refused_iff ext0 I32 (AStr [120])) as (c & ok & E & [_ H]); [cbn; tauto|].
    rewrite (H U) in E. vm_compute in E. discriminate. }
  split.
  { intros U. destruct (C100_refused_iff ext0 STRING (AInt32 5)) as (c & ok & E & [_ H]); [cbn; tauto|].
    rewrite (H U) in E. vm_compute in E. discriminate. }
  repeat (split; [vm_compute; reflexivity|]).
  eexists. split; [vm_compute; reflexivity|]. split; vm_compute; reflexivity.
Qed.

(** A list of numbers drops the text of a number and takes a text that is none, as 0. *)
Theorem C100_texts_refuted : exists l, l = [AInt32 42] /\
  tl_Push ext0 (MkTl I32 l) (AStr [55]) = Ok (MkTl I32 l) /\
  tl_Push ext0 (MkTl I32 l) (AStr [120]) = Ok (MkTl I32 (l ++ [AInt32 0])) /\
  (exists p, ts_Add ext0 3 (MkTs I32 0 l) (AStr [120]) = Ok p /\ ts_l p = l) /\
  tl_Contains ext0 3 (MkTl I32 [AInt32 0]) (AStr [120]) = Ok true.
Proof.
  eexists. split; [reflexivity|]. split; [vm_compute; reflexivity|]. split; [vm_compute; reflexivity|].
  split; [eexists; split; vm_compute; reflexivity|vm_compute; reflexivity].
Qed.
Print Assumptions C100_texts_refuted.
