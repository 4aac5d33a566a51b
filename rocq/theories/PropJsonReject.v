(** C70: the JSON readers refuse malformed input. *)
From Coq Require Import ZArith List Bool Lia String.
From Coq Require Import ZifyBool ZifyNat.
From Verif Require Import Base Arith Errors Transport TransportProofs Proto JsonText Strconv F64 GoVal Names
  BufIO BufRead BufReadProofs Json JsonSpec JsonTextProofs JsonWrite JsonRead JsonReadVal ReadProg WfDec PropJson.
Import ListNotations.
Local Open Scope list_scope.
Local Notation length := List.length.
Open Scope Z_scope.

(** The text without its leading white space. *)
Fixpoint unspaced (s : bytes) : bytes :=
  match s with
  | c :: s' => if existsb (Z.eqb c) [32; 9; 10; 13] then unspaced s' else s
  | [] => []
  end.
(** A character that can neither separate a value from the one before it nor close the container. *)
Definition no_separator (c : ctx) (x : Z) : Prop :=
  match c with
  | InList => x <> 44 /\ x <> 93
  | NextKey => x <> 44 /\ x <> 125
  | NextValue => x <> 58
  | _ => False
  end.
(** The calls that read a value, or the beginning of one. *)
Definition reads_value {A} (k : rcall A) : Prop :=
  match k with
  | CMessageEnd | CStructEnd | CFieldBegin | CFieldEnd | CMapEnd | CListEnd | CSetEnd | CSkip _ _ _ _ => False
  | _ => True
  end.
(** The call reports invalid data and leaves the stack of contexts alone. *)
Definition refuses {A} (m : rop jr A) (s : jr) : Prop :=
  exists a b, m s = Ok (a, Some (EProtocol INVALID_DATA), (b, snd s)).

Lemma unspaced_skip : forall s, skipn (ws_prefix s) s = unspaced s.
Proof.
  induction s as [|c s IH]; [reflexivity|]. cbn [ws_prefix unspaced].
  replace (existsb (Z.eqb c) [32; 9; 10; 13]) with (is_ws c) by (unfold is_ws; cbn [existsb]; lia).
  destruct (is_ws c); [exact IH|reflexivity].
Qed.
Lemma pre_refuses : forall c l b x t, unspaced (b_un b) = x :: t -> no_separator c x ->
  exists b', ParsePreValue (b, c :: l) = Ok (Some (EProtocol INVALID_DATA), (b', c :: l)).
Proof.
  intros c l b x t U N. unfold ParsePreValue. cbv zeta.
  assert (E : b_un (skip_ws b) = x :: t) by (cbn [skip_ws b_advance b_un]; now rewrite unspaced_skip).
  rewrite E. destruct c; cbn [no_separator] in N; try contradiction;
    repeat match goal with |- context [if ?a =? ?b then _ else _] => destruct (Z.eqb_spec a b); [lia|] end; eauto.
Qed.
Lemma rpre : forall A (a : A) k s c l b, s = (b, c :: l) ->
  (exists b', ParsePreValue s = Ok (Some (EProtocol INVALID_DATA), (b', c :: l))) -> refuses (pre a k) s.
Proof. intros A a k s c l b -> [b' E]. exists a, b'. unfold pre. now rewrite E. Qed.
Lemma rconv_refuses : forall f m s, refuses m s -> refuses (rconv f m) s.
Proof. intros f m s (a & b & E). exists (f a), b. unfold rconv. now rewrite E. Qed.
Lemma first_refuses : forall J s, refuses ParseListBegin s ->
  refuses (ParseElemListBegin J) s /\ refuses (sReadMessageBegin J) s /\ refuses (jReadMessageBegin J) s /\
  refuses (sReadMapBegin J) s /\ refuses (jReadMapBegin J) s.
Proof.
  intros J s (a & b & E).
  unfold refuses, ParseElemListBegin, sReadMessageBegin, jReadMessageBegin, sReadMapBegin, jReadMapBegin.
  rewrite E. cbn [obind]. destruct a; repeat split; eauto.
Qed.
Lemma struct_refuses : forall s, refuses ParseObjectStart s -> refuses ReadStructBegin s.
Proof. intros s (a & b & E). unfold refuses, ReadStructBegin. rewrite E. cbn [obind]. eauto. Qed.
Lemma value_refuses : forall J s (P : forall A, rcall A -> Prop),
  (P _ CBool -> refuses ReadBool s) -> (P _ CByte -> refuses (ReadI64 J) s) -> (P _ CI16 -> refuses (ReadI64 J) s) ->
  (P _ CI32 -> refuses (ReadI64 J) s) -> (P _ CI64 -> refuses (ReadI64 J) s) -> (P _ CDouble -> refuses (ReadDouble J) s) ->
  (P _ CString -> refuses ReadString s) -> (P _ CBinary -> refuses ReadBinary s) ->
  (P _ CStructBegin -> refuses ParseObjectStart s) ->
  (P _ CListBegin \/ P _ CSetBegin \/ P _ CMapBegin \/ P _ CMessageBegin -> refuses ParseListBegin s) ->
  forall A (k : rcall A), reads_value k -> P A k -> refuses (call (jsonR J) k) s /\ refuses (call (simpleR J) k) s.
Proof.
  intros J s P HBo HBy H16 H32 H64 HD HS HB HO HL A k R Hk. pose proof (first_refuses J s) as FR.
  destruct k; try destruct R;
    cbn [call jsonR simpleR rMessageBegin rStructBegin rMapBegin rListBegin rSetBegin rBool rByte rI16 rI32 rI64 rDouble rString rBinary];
    try (split; apply FR; tauto); try (split; apply struct_refuses; tauto); try tauto;
    split; apply rconv_refuses; tauto.
Qed.

(** ** C70 *)

(** When a separator is due and the next character in the buffer is something else, every call that
    reads a value refuses it. *)
Theorem C70_separator : forall J A (k : rcall A) c l b x t, reads_value k ->
  unspaced (b_un b) = x :: t -> no_separator c x ->
  refuses (call (jsonR J) k) (b, c :: l) /\ refuses (call (simpleR J) k) (b, c :: l).
Proof.
  intros J A k c l b x t R U N. pose proof (pre_refuses c l b x t U N) as P.
  apply (value_refuses J (b, c :: l) (fun _ _ => True)); auto; intros _; eapply rpre; try reflexivity; exact P.
Qed.
Print Assumptions C70_separator.

(** The same for field headers; a struct may be closed there. *)
Theorem C70_field_separator : forall J c l b x t,
  unspaced (b_un b) = x :: t -> no_separator c x ->
  refuses (call (simpleR J) CFieldBegin) (b, c :: l) /\
  (x <> 125 -> x <> 93 -> refuses (call (jsonR J) CFieldBegin) (b, c :: l)).
Proof.
  intros J c l b x t U N. pose proof (pre_refuses c l b x t U N) as P. split.
  - eapply rpre; [reflexivity|exact P].
  - intros X1 X2. cbn [call jsonR rFieldBegin]. unfold refuses, jReadFieldBegin. cbn [fst].
    destruct (b_un b) as [|y u] eqn:Eu; [discriminate U|].
    replace ((y =? 125) || (y =? 93)) with false.
    + assert (Rf : refuses (ReadI16 J) (b, c :: l)) by (apply rconv_refuses; eapply rpre; [reflexivity|exact P]).
      destruct Rf as (a & b' & ->). cbn [obind]. eauto.
    + cbn [unspaced] in U. destruct (existsb _ _) eqn:Ex; [cbn [existsb] in Ex; lia|]. injection U as -> ->. lia.
Qed.
Print Assumptions C70_field_separator.

(** What a value may start with: null, and for numbers also what only readNumeric takes. *)
Definition may_start {A} (k : rcall A) (x : Z) : Prop :=
  match k with
  | CBool => In x [116; 102; 110]
  | CString | CBinary => In x [34; 110]
  | CStructBegin => In x [123; 110]
  | CMessageBegin | CMapBegin | CListBegin | CSetBegin => In x [91; 110]
  | _ => 48 <= x <= 57 \/ In x [43; 45; 46; 101; 69; 78; 73; 34; 110]
  end.

Lemma pre_ok : forall c l b t, holds b (sep c ++ t) -> (In c [InList; NextKey; NextValue] -> b_un b <> []) -> nows t ->
  exists b', ParsePreValue (b, c :: l) = Ok (None, (b', c :: l)) /\ view Loose b' 0 t [].
Proof.
  intros c l b t HV Hr Hw. apply holds_view in HV.
  assert (N : nows (t ++ [])) by (now rewrite app_nil_r).
  destruct (pre_view Loose b 0 c l t [] HV N (ready_of _ _ Hr)) as (b1 & p1 & E1 & V1 & _).
  exists b1. split; [exact E1|]. eapply loose_prev, V1.
Qed.
Lemma pre_end : forall c l b, holds b [] ->
  exists b', ParsePreValue (b, c :: l) = Ok (None, (b', c :: l)) /\ view Loose b' 0 [] [].
Proof.
  intros c l b HV. pose proof HV as (_ & _ & U). apply app_eq_nil in U as [U _]. apply holds_view in HV.
  destruct (skip_same _ _ _ _ _ HV I) as [V1 U1]. exists (skip_ws b). split; [|exact V1].
  unfold ParsePreValue. cbv zeta. rewrite U1, U. reflexivity.
Qed.

Section Start.
Variables (J : jenv) (c : ctx) (l : list ctx) (b : breader).
Variable t : bytes.
Hypothesis pre_ok : exists b', ParsePreValue (b, c :: l) = Ok (None, (b', c :: l)) /\ view Loose b' 0 t [].
Hypothesis Hw : nows t.
Lemma quoted_start : forall body, hd 0 t <> 34 -> hd 0 t <> 110 -> refuses (read_quoted body) (b, c :: l).
Proof.
  intros body H1 H2. destruct pre_ok as (b1 & E & V). unfold refuses, read_quoted, pre. rewrite E. cbn [obind].
  destruct (peek_view 4 _ _ _ _ _ V) as (b2 & -> & _); [lia|]. rewrite app_nil_r.
  rewrite (firstn_hd t (lit "null") 4) by (assumption || (try lia; discriminate)).
  destruct t as [|x u]; cbn [firstn hd] in *; unfold bad_data; [eauto|].
  destruct x as [|p|p]; eauto. do 6 (destruct p as [p|p|]; eauto). lia.
Qed.
Lemma object_start : hd 0 t <> 123 -> hd 0 t <> 110 -> refuses ParseObjectStart (b, c :: l).
Proof.
  intros H1 H2. destruct pre_ok as (b1 & E & V). unfold refuses, ParseObjectStart, pre. rewrite E. cbn [obind].
  destruct (peek_view 4 _ _ _ _ _ V) as (b2 & -> & _); [lia|]. rewrite app_nil_r.
  rewrite (firstn_hd t (lit "null") 4) by (assumption || (try lia; discriminate)).
  destruct t as [|x u]; cbn [firstn hd] in *; unfold bad_data; [eauto|].
  destruct x as [|p|p]; eauto. do 7 (destruct p as [p|p|]; eauto). lia.
Qed.
Lemma list_start : hd 0 t <> 91 -> hd 0 t <> 110 -> refuses ParseListBegin (b, c :: l).
Proof.
  intros H1 H2. destruct pre_ok as (b1 & E & V). unfold refuses, ParseListBegin, pre. rewrite E. cbn [obind].
  destruct (peek_view 4 _ _ _ _ _ V) as (b2 & -> & _); [lia|]. rewrite app_nil_r.
  rewrite (firstn_hd t (lit "null") 4) by (assumption || (try lia; discriminate)). rewrite andb_false_r.
  destruct t as [|x u]; cbn [firstn hd] in *; unfold bad_data; [eauto|].
  destruct x as [|p|p]; eauto. do 7 (destruct p as [p|p|]; eauto). lia.
Qed.
Lemma bool_start : t <> [] -> ~ In (hd 0 t) [116; 102; 110] -> refuses ReadBool (b, c :: l).
Proof.
  intros H0 H1. destruct pre_ok as (b1 & E & V). unfold refuses, ReadBool, pre. rewrite E. cbn [obind].
  destruct (peek_view 5 _ _ _ _ _ V) as (b2 & -> & _); [lia|]. rewrite app_nil_r.
  destruct t as [|x u]; [congruence|]. cbn [firstn hd] in *. cbv zeta. cbn [In] in H1.
  repeat match goal with |- context [if ?a =? ?b then _ else _] => destruct (Z.eqb_spec a b); [exfalso; lia|] end.
  unfold bad_data. eauto.
Qed.
Lemma num_start : forall pick, ~ may_start CI64 (hd 0 t) -> refuses (ParseNum J pick) (b, c :: l).
Proof.
  intros pick H1. destruct pre_ok as (b1 & E & V). unfold refuses, ParseNum, pre. rewrite E. cbn [obind].
  destruct (peek_view 4 _ _ _ _ _ V) as (b2 & -> & V2 & _); [lia|]. rewrite app_nil_r.
  cbn [may_start In] in H1.
  rewrite (firstn_hd t (lit "null") 4) by (first [lia|discriminate|change (hd 0 (lit "null")) with 110; lia]). unfold readNumeric.
  assert (N : nows (t ++ [])) by (now rewrite app_nil_r).
  destruct (not_null _ _ _ _ _ V2 N) as (b3 & -> & V3); [rewrite app_nil_r; lia|].
  unfold str_fuel. cbn [numeric_loop].
  destruct t as [|x u]; cbn [hd] in H1.
  - destruct (byte_eof _ _ _ V3) as (b4 & -> & _). cbn [obind]. eauto.
  - destruct (byte_view _ _ _ _ _ _ V3) as (b4 & -> & V4).
    unfold is_digit. cbv zeta.
    repeat match goal with
    | |- context [if ?e then _ else _] =>
      let E := fresh in destruct e eqn:E; [first [exfalso; lia|cbn [obind]; eauto; fail]|]
    end. cbn [obind]. eauto.
Qed.
End Start.

(** Every call refuses a text that starts with a character no such value starts with; the text may
    come in any chunks, but a separator before it has to be in the buffer (see C60). *)
Theorem C70_start : forall J A (k : rcall A) c l b x t, reads_value k ->
  holds b (sep c ++ x :: t) -> (In c [InList; NextKey; NextValue] -> b_un b <> []) ->
  ~ In x [32; 9; 10; 13] -> ~ may_start k x ->
  refuses (call (jsonR J) k) (b, c :: l) /\ refuses (call (simpleR J) k) (b, c :: l).
Proof.
  intros J A k c l b x t R V Hr W M.
  assert (N : nows (x :: t)) by (cbn [nows In] in *; unfold is_ws; lia).
  pose proof (pre_ok c l b (x :: t) V Hr N) as P.
  apply (value_refuses J (b, c :: l) (fun _ k => ~ may_start k x)); try assumption; cbn [may_start]; intros Q.
  - apply bool_start with (x :: t); first [assumption|discriminate].
  - apply num_start with (x :: t); assumption.
  - apply num_start with (x :: t); assumption.
  - apply num_start with (x :: t); assumption.
  - apply num_start with (x :: t); assumption.
  - apply num_start with (x :: t); assumption.
  - apply quoted_start with (x :: t); first [assumption|cbn [hd In] in *; lia].
  - apply quoted_start with (x :: t); first [assumption|cbn [hd In] in *; lia].
  - apply object_start with (x :: t); first [assumption|cbn [hd In] in *; lia].
  - assert (Q' : ~ In x [91; 110]) by tauto. apply list_start with (x :: t); first [assumption|cbn [hd In] in *; lia].
Qed.
Print Assumptions C70_start.

(** *** Numbers *)
Definition num_char (x : Z) : Prop := 48 <= x <= 57 \/ In x [46; 101; 69; 43; 45].
(** [x] may not come next after the number characters [p]: a second point or a point in the
    exponent, a second exponent, a sign that is neither first nor right after the exponent, or a
    letter. *)
Definition misplaced (p : bytes) (x : Z) : Prop :=
  (x = 46 /\ (In 46 p \/ In 101 p \/ In 69 p)) \/
  (In x [101; 69] /\ (In 101 p \/ In 69 p)) \/
  (In x [43; 45] /\ exists q y, p = q ++ [y] /\ y <> 101 /\ y <> 69) \/
  (p <> [] /\ (97 <= x <= 122 \/ 65 <= x <= 90) /\ ~ In x [101; 69] /\ (x <> 73 \/ (p <> [43] /\ p <> [45]))).

Lemma run_flags : forall p pt sg ex, Forall num_char p -> num_run p false true false = Some (pt, sg, ex) ->
  (In 46 p -> pt = true) /\ (In 101 p \/ In 69 p -> ex = true) /\
  (forall q y, p = q ++ [y] -> y <> 101 -> y <> 69 -> sg = false).
Proof.
  induction p as [|y p IH] using rev_ind; intros pt sg ex F R.
  - cbn in R. injection R as <- <- <-. repeat split; [intros []|intros [[]|[]]|]. intros [|] ? H; discriminate.
  - apply Forall_app in F as [F Fy]. apply Forall_inv in Fy.
    rewrite num_run_app in R. destruct (num_run p false true false) as [[[p0 s0] e0]|] eqn:R0; [|discriminate].
    destruct (IH _ _ _ F eq_refl) as (A & B & _). cbn [num_run] in R.
    assert (G : (y = 46 -> pt = true) /\ (p0 = true -> pt = true) /\ (y = 101 \/ y = 69 -> ex = true) /\ (e0 = true -> ex = true) /\
                (y <> 101 -> y <> 69 -> sg = false)).
    { unfold is_digit in R.
      repeat match type of R with (if ?x then _ else _) = _ => let E := fresh in destruct x eqn:E end; try discriminate;
        injection R as <- <- <-; repeat split; try tauto; try lia; intros; subst; try lia; try congruence. }
    destruct G as (G1 & G2 & G3 & G4 & G5). rewrite !in_app_iff. cbn [In]. repeat split.
    + intros [H|[H|[]]]; auto.
    + intros [[H|[H|[]]]|[H|[H|[]]]]; auto.
    + intros q y' H N1 N2. apply app_inj_tail in H as [_ <-]. auto.
Qed.
(** A number character that the loop of readNumeric does not take. *)
Definition stuck (y : Z) (pt sg ex : bool) : Prop :=
  (y = 46 /\ (pt = true \/ ex = true)) \/ (In y [101; 69] /\ ex = true) \/ (In y [43; 45] /\ sg = false).
Lemma first_stuck : forall p pt sg ex, Forall num_char p -> num_run p pt sg ex = None ->
  exists p1 y p2 pt' sg' ex', p = p1 ++ y :: p2 /\ num_run p1 pt sg ex = Some (pt', sg', ex') /\ stuck y pt' sg' ex'.
Proof.
  induction p as [|y p IH]; intros pt sg ex F R; [discriminate|].
  apply Forall_cons_iff in F as [Fy F]. cbn [num_run] in R.
  assert (G : stuck y pt sg ex \/ exists pt1 sg1 ex1, num_run p pt1 sg1 ex1 = None /\
               forall p1, num_run (y :: p1) pt sg ex = num_run p1 pt1 sg1 ex1).
  { unfold stuck, num_char in *. cbn [In num_run] in *. unfold is_digit in *.
    destruct pt, ex, sg; cbn [orb] in *;
    repeat match type of R with (if ?x then _ else _) = _ => let E := fresh in destruct x eqn:E end;
      first [left; lia|right; do 3 eexists; split; [exact R|reflexivity]]. }
  destruct G as [G|(pt1 & sg1 & ex1 & R1 & E)].
  - exists [], y, p, pt, sg, ex. repeat split; auto.
  - destruct (IH _ _ _ F R1) as (p1 & z & p2 & a & b & c & -> & H & S). exists (y :: p1), z, p2, a, b, c. rewrite E. auto.
Qed.
Lemma num_bad : forall J p x t, Forall num_char p -> misplaced p x -> forall b,
  view Loose b 0 (p ++ x :: t) [] ->
  exists b', numeric_loop J (str_fuel b) [] false true false false b = Ok ((NUMERIC_NULL, Some (EProtocol INVALID_DATA)), b').
Proof.
  intros J p x t F M.
  assert (G : exists p1 y t1 pt sg ex, p ++ x :: t = p1 ++ y :: t1 /\ num_run p1 false true false = Some (pt, sg, ex) /\
     (stuck y pt sg ex \/
      (p1 <> [] /\ (97 <= y <= 122 \/ 65 <= y <= 90) /\ ~ In y [101; 69] /\ (y <> 73 \/ (p1 <> [43] /\ p1 <> [45]))))).
  { unfold stuck. destruct (num_run p false true false) as [[[pt sg] ex]|] eqn:R.
    - exists p, x, t, pt, sg, ex. repeat (split; [auto|]). destruct (run_flags p pt sg ex F R) as (A & B & C).
      destruct M as [[-> [H|H]]|[[H H']|[[H (q & y & E & N1 & N2)]|H]]]; auto 6.
      left; right; right. split; [exact H|]. eapply C; eauto.
    - destruct (first_stuck _ _ _ _ F R) as (p1 & y & p2 & pt & sg & ex & -> & H & S).
      exists p1, y, (p2 ++ x :: t), pt, sg, ex. rewrite <- app_assoc. auto. }
  destruct G as (p1 & y & t1 & pt & sg & ex & -> & R & Y). intros b V. rewrite (view_fuel _ _ _ _ _ V), app_nil_r, app_length.
  cbn [length]. replace (S (length p1 + S (length t1))) with (length p1 + S (S (length t1)))%nat by lia.
  destruct (num_steps J p1 Loose b 0 (y :: t1) [] (S (S (length t1))) [] _ _ _ _ _ _ false V R) as (b1 & pr & -> & V1).
  cbn [app numeric_loop]. destruct (byte_view _ _ _ _ _ _ V1) as (b2 & -> & _). cbv zeta.
  unfold stuck, is_term, is_ws, is_digit in *. cbn [In] in Y.
  destruct pt, ex, sg;
  repeat match goal with
  | |- context [if ?e then _ else _] =>
    lazymatch e with context [beq] => fail | _ => let E := fresh in destruct e eqn:E; [first [exfalso; lia|eauto; fail]|] end
  end.
  all: destruct Y as [Y|(N & _ & _ & I)]; [exfalso; lia|].
  all: destruct (y =? 78); [destruct p1; [congruence|eauto]|].
  all: destruct (Z.eqb_spec y 73) as [Ey|]; [|eauto].
  all: destruct I as [I|[I1 I2]]; [congruence|].
  all: destruct (beq p1 []) eqn:B0; [apply beq_eq in B0; congruence|].
  all: destruct (beq p1 [43]) eqn:B1; [apply beq_eq in B1; congruence|].
  all: destruct (beq p1 [45]) eqn:B2; [apply beq_eq in B2; congruence|].
  all: cbn [orb]; eauto.
Qed.
Lemma number_refuses : forall J pick c l b p x t, Forall num_char p -> p <> [] -> misplaced p x ->
  holds b (sep c ++ p ++ x :: t) -> (In c [InList; NextKey; NextValue] -> b_un b <> []) ->
  refuses (ParseNum J pick) (b, c :: l).
Proof.
  intros J pick c l b p x t F Np M V Hr. destruct p as [|y p]; [congruence|].
  assert (Y : num_char y) by (now apply Forall_inv in F). unfold num_char in Y. cbn [In] in Y.
  assert (W : nows ((y :: p) ++ x :: t)) by (cbn [app nows]; unfold is_ws; lia).
  destruct (pre_ok c l b _ V Hr W) as (b1 & E & V1). unfold refuses, ParseNum, pre. rewrite E. cbn [obind].
  destruct (peek_view 4 _ _ _ _ _ V1) as (b2 & -> & V2 & _); [lia|]. rewrite app_nil_r.
  rewrite (firstn_hd _ (lit "null") 4) by (first [lia|discriminate|change (hd 0 (lit "null")) with 110; cbn [app hd]; lia]).
  unfold readNumeric.
  destruct (not_null _ _ _ _ _ V2) as (b3 & -> & V3); [now rewrite app_nil_r|rewrite app_nil_r; cbn [app hd]; lia|].
  destruct (num_bad J (y :: p) x t F M b3 (loose_prev _ _ _ _ _ V3)) as (b4 & ->). cbn [obind]. eauto.
Qed.

Definition s70 (t : string) (c : ctx) : jr :=
  let b := new_breader [(lit t, None)] in (snd (b_peek 1 b), [c; TopLevel]).
(** Every call that reads a number refuses one with a misplaced point, exponent, sign or letter,
    however the text is cut. *)
Theorem C70_number : forall J c l b p x t, Forall num_char p -> p <> [] -> misplaced p x ->
  holds b (sep c ++ p ++ x :: t) -> (In c [InList; NextKey; NextValue] -> b_un b <> []) ->
  forall A (k : rcall A), match k with CByte | CI16 | CI32 | CI64 | CDouble => True | _ => False end ->
  refuses (call (jsonR J) k) (b, c :: l) /\ refuses (call (simpleR J) k) (b, c :: l).
Proof.
  intros J c l b p x t F Np M V Hr A k Hk.
  assert (R : forall pick, refuses (ParseNum J pick) (b, c :: l)) by (intros; eapply number_refuses; eassumption).
  destruct k; try destruct Hk; cbn [call jsonR simpleR rByte rI16 rI32 rI64 rDouble];
    split; try apply R; apply rconv_refuses, R.
Qed.
Print Assumptions C70_number.

(** *** Strings *)
(** The inside of a string literal with a character that is not allowed there: an unknown escape or
    a control character, after any printable ASCII characters and escapes. *)
Inductive bad_body : bytes -> Prop :=
| bad_escape x u : ~ In x [34; 92; 47; 98; 102; 110; 114; 116; 117] -> bad_body (92 :: x :: u)
| bad_control x u : 0 <= x < 32 -> bad_body (x :: u)
| bad_char x u : 32 <= x < 128 -> x <> 34 -> x <> 92 -> bad_body u -> bad_body (x :: u)
| bad_after x u : In x [34; 92; 47; 98; 102; 110; 114; 116] -> bad_body u -> bad_body (92 :: x :: u).
Lemma bad_unquote : forall w, bad_body w -> forall f s, unquote_body f (w ++ s) = None.
Proof.
  intros w B. induction B as [x u N|x u L|x u L N1 N2 B IH|x u I B IH]; intros [|f] s; try reflexivity; cbn [app unquote_body].
  - cbn [In] in N. change (92 =? 34) with false. change (92 =? 92) with true. cbv iota zeta.
    repeat match goal with |- context [if ?e then _ else _] => let E := fresh in destruct e eqn:E; [exfalso; lia|] end. reflexivity.
  - replace (x =? 34) with false by lia. replace (x =? 92) with false by lia. replace (x <? 32) with true by lia. reflexivity.
  - replace (x =? 34) with false by lia. replace (x =? 92) with false by lia. replace (x <? 32) with false by lia.
    replace (x <? 128) with true by lia. now rewrite IH.
  - change (92 =? 34) with false. change (92 =? 92) with true. cbv iota zeta. rewrite IH.
    cbn [In] in I.
    repeat match goal with |- context [if ?e then _ else _] => let E := fresh in destruct e eqn:E; [reflexivity|] end. exfalso. lia.
Qed.
Lemma bad_string : forall w b s, body w -> In 34 w -> bad_body w -> view Loose b 0 (w ++ 34 :: s) [] ->
  exists v b', ParseStringBody b = Ok (v, Some (EProtocol INVALID_DATA), b').
Proof.
  intros w b s B Iw Bw V. unfold ParseStringBody.
  destruct (body_split w B) as [[I E]|(w1 & w2 & -> & I & E & B2)]; [contradiction|].
  rewrite <- app_assoc in V. cbn [app] in V.
  destruct (until_view _ b _ w1 34 _ _ V I Logic.I) as (b1 & -> & V1).
  rewrite backslashes_trail, E, (view_fuel _ _ _ _ _ V1).
  destruct (quoted_body_view (S (length ((w2 ++ 34 :: s) ++ []))) w2 Loose b1 34 s [] B2 Logic.I V1) as (b2 & -> & V2).
  { rewrite !app_length. lia. }
  cbn [obind].
  replace ([34] ++ (w1 ++ [34]) ++ w2 ++ [34]) with ([34] ++ (w1 ++ 34 :: w2) ++ [34])
    by (cbn [app]; rewrite <- !app_assoc; reflexivity).
  cbn [app json_unquote]. rewrite (bad_unquote _ Bw). eauto.
Qed.
Lemma quoted_refuses : forall bd c l b w t, holds b (sep c ++ quoted w ++ t) ->
  (In c [InList; NextKey; NextValue] -> b_un b <> []) ->
  (forall b0, view Loose b0 0 (w ++ 34 :: t) [] -> exists v b1, bd b0 = Ok (v, Some (EProtocol INVALID_DATA), b1)) ->
  refuses (read_quoted bd) (b, c :: l).
Proof.
  intros bd c l b w t V Hr H. destruct (pre_ok c l b _ V Hr eq_refl) as (b1 & E & V1).
  unfold refuses, read_quoted, pre. rewrite E. cbn [obind].
  destruct (peek_view 4 _ _ _ _ _ V1) as (b2 & -> & V2 & _); [lia|].
  unfold quoted in *. cbn [app firstn] in *. rewrite <- app_assoc in V2. cbn [app] in V2.
  destruct (byte_view _ _ _ _ _ _ V2) as (b3 & -> & V3). cbn [snd].
  destruct (H b3 (loose_prev _ _ _ _ _ V3)) as (v & b4 & ->). cbn [obind]. eauto.
Qed.

(** ReadString refuses such a literal if it has an escaped quote in it; without one it takes it for
    the empty string (C70_refuted). *)
Theorem C70_string_partial : forall J c l b w t, body w -> In 34 w -> bad_body w ->
  holds b (sep c ++ quoted w ++ t) -> (In c [InList; NextKey; NextValue] -> b_un b <> []) ->
  refuses (call (jsonR J) CString) (b, c :: l) /\ refuses (call (simpleR J) CString) (b, c :: l).
Proof.
  intros J c l b w t B I Bw V Hr.
  assert (R : refuses ReadString (b, c :: l)).
  { apply quoted_refuses with w t; auto. intros b0 V0. exact (bad_string w b0 t B I Bw V0). }
  split; exact R.
Qed.
Print Assumptions C70_string_partial.

(** *** Base64 *)
Definition b64_digit (x : Z) : Prop := 65 <= x <= 90 \/ 97 <= x <= 122 \/ 48 <= x <= 57 \/ x = 43 \/ x = 47.
Definition newline (x : Z) : Prop := x = 10 \/ x = 13.
(** The number of characters that are not line breaks. *)
Fixpoint digits (w : bytes) : nat :=
  match w with x :: w' => ((if ((x =? 10) || (x =? 13))%Z then 0 else 1) + digits w')%nat | [] => 0%nat end.
(** No base64: a character outside the alphabet, or digits that make no whole number of groups of four. *)
Definition bad_base64 (w : bytes) : Prop :=
  (exists p x u, w = p ++ x :: u /\ Forall (fun y => b64_digit y \/ newline y) p /\
     ~ b64_digit x /\ ~ newline x /\ x <> 61) \/
  (Forall (fun y => b64_digit y \/ newline y) w /\ (digits w mod 4 <> 0)%nat).
Lemma b64_digits : forall p s q, Forall (fun y => b64_digit y \/ newline y) p -> (length q < 4)%nat ->
  exists q', snd (b64_decode (p ++ s) q) = snd (b64_decode s q') /\ (length q' < 4)%nat /\
             (length q' mod 4 = (length q + digits p) mod 4)%nat.
Proof.
  induction p as [|x p IH]; intros s q F L.
  - exists q. cbn [digits app]. now rewrite Nat.add_0_r.
  - apply Forall_cons_iff in F as [Fx F]. cbn [app b64_decode digits].
    destruct ((x =? 13) || (x =? 10)) eqn:Ex.
    + replace ((x =? 10) || (x =? 13)) with true by lia. apply IH; assumption.
    + replace ((x =? 10) || (x =? 13)) with false by lia.
      replace (x =? 61) with false by (unfold b64_digit, newline in Fx; lia). cbn [andb].
      assert (Vx : exists v, b64_val x = Some v).
      { unfold b64_val, b64_digit, newline in *.
        repeat match goal with |- context [if ?e then _ else _] => let E := fresh in destruct e eqn:E; [eauto|] end. exfalso. lia. }
      destruct Vx as [v ->].
      destruct q as [|q1 [|q2 [|q3 [|q4 q]]]]; cbn [length app] in *;
        try (destruct (IH s _ F (ltac:(cbn; lia) : (length [v] < 4)%nat)) as (q' & E & Lq & M); exists q'; cbn [length] in M;
             repeat split; auto; rewrite M; f_equal; lia);
        try (destruct (IH s _ F (ltac:(cbn; lia) : (length [q1; v] < 4)%nat)) as (q' & E & Lq & M); exists q'; cbn [length] in M;
             repeat split; auto; rewrite M; f_equal; lia);
        try (destruct (IH s _ F (ltac:(cbn; lia) : (length [q1; q2; v] < 4)%nat)) as (q' & E & Lq & M); exists q'; cbn [length] in M;
             repeat split; auto; rewrite M; f_equal; lia); [|lia].
      destruct (IH s [] F (ltac:(cbn; lia))) as (q' & E & Lq & M). exists q'. cbn [length] in M.
      destruct (b64_decode (p ++ s) []) as [d ok]. cbn [snd] in *. repeat split; auto. rewrite M.
      replace (3 + (1 + digits p))%nat with (digits p + 1 * 4)%nat by lia. rewrite Nat.mod_add by lia. reflexivity.
Qed.
Lemma bad_decode : forall w, bad_base64 w -> snd (b64_decode w []) = false.
Proof.
  intros w [(p & x & u & -> & F & N1 & N2 & N3)|[F N]].
  - destruct (b64_digits p (x :: u) [] F) as (q & -> & _); [cbn; lia|]. cbn [b64_decode].
    unfold b64_digit, newline in *. replace ((x =? 13) || (x =? 10)) with false by lia. replace (x =? 61) with false by lia. cbn [andb].
    replace (b64_val x) with (@None Z); [reflexivity|]. unfold b64_val.
    repeat match goal with |- context [if ?e then _ else _] => let E := fresh in destruct e eqn:E; [exfalso; lia|] end. reflexivity.
  - destruct (b64_digits w [] [] F) as (q & E & _ & M); [cbn; lia|]. rewrite app_nil_r in E. rewrite E.
    cbn [b64_decode snd]. destruct q; [|reflexivity]. cbn [length Nat.add] in M. rewrite <- M in N. now contradiction N.
Qed.

(** ReadBinary refuses such a text. *)
Theorem C70_base64 : forall J c l b w t, ~ In 34 w -> bad_base64 w ->
  holds b (sep c ++ quoted w ++ t) -> (In c [InList; NextKey; NextValue] -> b_un b <> []) ->
  refuses (call (jsonR J) CBinary) (b, c :: l) /\ refuses (call (simpleR J) CBinary) (b, c :: l).
Proof.
  intros J c l b w t I Bw V Hr.
  assert (R : refuses ReadBinary (b, c :: l)).
  { apply quoted_refuses with w t; auto. intros b0 V0. unfold ParseBase64EncodedBody.
    destruct (until_view _ b0 _ w 34 _ _ V0 I Logic.I) as (b1 & -> & V1). rewrite removelast_last.
    pose proof (bad_decode w Bw) as D. destruct (b64_decode w []) as [v ok]. cbn [snd] in D. subst ok. cbn. eauto. }
  split; exact R.
Qed.
Print Assumptions C70_base64.

(** At the end of the input every call but ReadBool does the same. *)
Theorem C70_end_partial : forall J A (k : rcall A) c l b, reads_value k ->
  holds b [] -> match k with CBool => False | _ => True end ->
  refuses (call (jsonR J) k) (b, c :: l) /\ refuses (call (simpleR J) k) (b, c :: l).
Proof.
  intros J A k c l b R V Hk. pose proof (pre_end c l b V) as P.
  apply (value_refuses J (b, c :: l) (fun _ k => match k with CBool => False | _ => True end)); try assumption; intros Q;
    first [contradiction|(apply num_start with (@nil Z); first [assumption|exact I|cbn; lia])
          |apply quoted_start with (@nil Z); first [assumption|exact I|cbn; lia]
          |apply object_start with (@nil Z); first [assumption|exact I|cbn; lia]
          |(apply list_start with (@nil Z); first [assumption|exact I|cbn; lia])].
Qed.
Print Assumptions C70_end_partial.

(** The parts of a header: numbers read by ReadByte, ReadI32 and ReadI64, the version 1, strings. *)
Inductive kind : Type := KByte | KI32 | KI64 | KVersion | KString.
Inductive part : Type := PNum (z : Z) | PText (cs : list Z).
Definition part_text (J : jenv) (p : part) : bytes :=
  match p with PNum z => FormatInt z | PText cs => json_quote (j_style J) (utf8 cs) end.
Definition part_ok (J : jenv) (k : mode) (d : kind) (p : part) : Prop :=
  match d, p with
  | KByte, PNum z => in_u 8 z
  | KI32, PNum z => in_s 32 z
  | KI64, PNum z => in_s 64 z
  | KVersion, PNum z => z = 1
  | KString, PText cs => Forall scalar cs /\ fits k (json_quote (j_style J) (utf8 cs))
  | _, _ => False
  end.
Definition kind_start (d : kind) (x : Z) : Prop :=
  match d with KString => may_start CString x | _ => may_start CI64 x end.
Definition json_header {A} (h : rcall A) : list kind :=
  match h with
  | CListBegin | CSetBegin => [KByte; KI64]
  | CMapBegin => [KString; KString; KI64]
  | CMessageBegin => [KVersion; KString; KByte; KI32]
  | _ => []
  end.
Definition simple_header {A} (h : rcall A) : list kind :=
  match h with
  | CListBegin | CSetBegin => [KByte; KI64]
  | CMapBegin => [KByte; KByte; KI64]
  | CMessageBegin => [KString; KByte; KI32]
  | _ => []
  end.
Definition parts_text (J : jenv) (ps : list part) : bytes := flat_map (fun p => part_text J p ++ [44]) ps.
Definition header_text (J : jenv) (ps : list part) : bytes := [91] ++ parts_text J ps.

Section Header.
Variables (J : jenv) (k : mode).
Hypothesis Kl : k <> Loose.

Lemma good_num : forall f z c b prev s rest l,
  view k b prev (sep c ++ FormatInt z ++ 44 :: s) rest -> in_s 64 z -> f z = z -> is_key c = false ->
  exists b' prev', rconv f (ReadI64 J) (b, c :: l) = Ok (z, None, (b', after_value c :: l)) /\ view k b' prev' (44 :: s) rest.
Proof.
  intros f z c b prev s rest l V Hz Fz Kc.
  apply (rconv_view J k f c z b prev (44 :: s) rest l (rdy k Kl _ _) Hz Fz); [|cbn; tauto].
  unfold key_text. now rewrite Kc.
Qed.
Lemma good_str : forall cs c b prev s rest l,
  view k b prev (sep c ++ json_quote (j_style J) (utf8 cs) ++ 44 :: s) rest ->
  Forall scalar cs -> fits k (json_quote (j_style J) (utf8 cs)) ->
  exists b' prev', ReadString (b, c :: l) = Ok (utf8 cs, None, (b', after_value c :: l)) /\ view k b' prev' (44 :: s) rest.
Proof.
  intros cs c b prev s rest l V F Fi.
  destruct (ReadString_view (j_style J) c cs k b prev (44 :: s) rest l F Fi (rdy k Kl _ _) V eq_refl) as (b' & E & V').
  eauto.
Qed.
Lemma bad_pre : forall c b prev x rest l, view k b prev (sep c ++ [x]) rest -> is_ws x = false ->
  exists b', ParsePreValue (b, c :: l) = Ok (None, (b', c :: l)) /\ view Loose b' 0 (x :: rest) [].
Proof.
  intros c b prev x rest l V W.
  destruct (pre_view k b prev c l [x] rest V W (rdy k Kl _ _)) as (b' & p' & E & V' & _). exists b'. split; [exact E|].
  apply view_holds in V'. now apply holds_view in V'.
Qed.
Lemma bad_num : forall f c b prev x rest l, view k b prev (sep c ++ [x]) rest -> is_ws x = false ->
  ~ may_start CI64 x -> refuses (rconv f (ReadI64 J)) (b, c :: l).
Proof.
  intros f c b prev x rest l V W M. apply rconv_refuses. apply num_start with (x :: rest); [|exact W|exact M].
  eapply bad_pre; eassumption.
Qed.
Lemma bad_i64 : forall c b prev x rest l, view k b prev (sep c ++ [x]) rest -> is_ws x = false ->
  ~ may_start CI64 x -> refuses (ReadI64 J) (b, c :: l).
Proof.
  intros c b prev x rest l V W M. apply num_start with (x :: rest); [|exact W|exact M].
  eapply bad_pre; eassumption.
Qed.
Lemma bad_str : forall c b prev x rest l, view k b prev (sep c ++ [x]) rest -> is_ws x = false ->
  ~ may_start CString x -> refuses ReadString (b, c :: l).
Proof.
  intros c b prev x rest l V W M. cbn [may_start In] in M.
  apply quoted_start with (x :: rest); [eapply bad_pre; eassumption|first [exact W|intros X; cbn in X; lia]..].
Qed.

(** The call fails with invalid data. *)
Definition fails {A} (m : rop jr A) (s : jr) : Prop :=
  exists a s', m s = Ok (a, Some (EProtocol INVALID_DATA), s').

Lemma cons_inj : forall (d d' : kind) l l', d :: l = d' :: l' -> d = d' /\ l = l'.
Proof. intros d d' l l' H. injection H. auto. Qed.
Ltac range := unfold in_u, in_s in *; lia.
Ltac fixed := first [reflexivity|unfold wrapu; unfold in_u in *; apply Z.mod_small; lia|apply wraps_id; [lia|assumption]|apply wraps_id; assumption].
Ltac go V W M :=
  match goal with
  | |- context [rconv ?f (ReadI64 J) (?b, ?c :: ?l)] =>
    first
    [ destruct (bad_num f c b _ _ _ l V W M) as (? & ? & ->); cbn [obind]; eauto; fail
    | let V' := fresh in
      destruct (good_num f _ c b _ _ _ l V) as (? & ? & -> & V'); [range|fixed|reflexivity|];
      cbn [obind after_value]; change (1 =? 1) with true; cbv iota; clear V; go V' W M ]
  | |- context [ReadI64 J (?b, ?c :: ?l)] =>
    destruct (bad_i64 c b _ _ _ l V W M) as (? & ? & ->); cbn [obind]; eauto
  | |- context [ReadString (?b, ?c :: ?l)] =>
    first
    [ destruct (bad_str c b _ _ _ l V W M) as (? & ? & ->); cbn [obind]; eauto; fail
    | let V' := fresh in
      destruct (good_str _ c b _ _ _ l V) as (? & ? & -> & V'); [assumption|assumption|];
      cbn [obind after_value]; clear V; go V' W M ]
  end.
Ltac shape H :=
  repeat match type of H with
  | _ = ?ds ++ _ :: _ => destruct ds as [|? ds]; cbn [app] in H;
      [ apply cons_inj in H as [<- H] | apply cons_inj in H as [<- H] ]
  end.
Ltac parts :=
  repeat match goal with
  | H : Forall2 _ [] _ |- _ => inversion H; subst; clear H
  | H : Forall2 _ (_ :: _) _ |- _ => inversion H; subst; clear H
  | H : part_ok _ _ _ ?p |- _ => destruct p; cbn [part_ok] in H; try contradiction
  end.

Lemma header_fails : forall A (h : rcall A) ds d post ps x rest r l,
  Forall2 (part_ok J k) ds ps -> ~ kind_start d x -> is_ws x = false -> (3 <= length (parts_text J ps ++ [x] ++ rest))%nat ->
  readable k (header_text J ps ++ [x]) rest r ->
  (json_header h = ds ++ d :: post -> fails (call (jsonR J) h) (new_breader r, TopLevel :: l)) /\
  (simple_header h = ds ++ d :: post -> fails (call (simpleR J) h) (new_breader r, TopLevel :: l)).
Proof.
  intros A h ds d post ps x rest r l F2 M W L R. apply readable_view in R.
  unfold header_text in R. rewrite <- app_assoc in R. cbn [app] in R.
  destruct (ListBegin_view TopLevel k (new_breader r) 0 (parts_text J ps ++ [x]) rest l (rdy k Kl _ _) R)
    as (b0 & E0 & V0). { rewrite <- app_assoc. exact L. }
  clear R L.
  split; intros H; destruct h; try (cbn in H; destruct ds; discriminate H);
    cbn [json_header simple_header] in H; cbn [call jsonR simpleR rMessageBegin rMapBegin rListBegin rSetBegin];
    unfold fails, ParseElemListBegin, sReadMessageBegin, jReadMessageBegin, sReadMapBegin, jReadMapBegin; rewrite E0; cbn [obind].
  all: shape H.
  all: parts.
  all: cbn [parts_text flat_map part_text app] in V0; repeat rewrite <- app_assoc in V0; cbn [app] in V0.
  all: unfold read_envelope, ReadByte, ReadI32.
  all: try match goal with H : Forall scalar _ /\ _ |- _ => destruct H end.
  all: try match goal with H : Forall scalar _ /\ _ |- _ => destruct H end.
  all: try (exfalso; repeat (apply cons_inj in H as [_ H]); destruct ds; discriminate H).
  all: try match goal with H : _ = 1 |- _ => subst end.
  all: go V0 W M.
Qed.
End Header.
(** Fewer than three characters after a bracket are refused, whatever they are. *)
Lemma short_list : forall J k b prev s rest l A (h : rcall A), k <> Loose -> (length (s ++ rest) < 3)%nat ->
  view k b prev (91 :: s) rest -> json_header h <> [] \/ simple_header h <> [] ->
  fails (call (jsonR J) h) (b, TopLevel :: l) /\ fails (call (simpleR J) h) (b, TopLevel :: l).
Proof.
  intros J k b prev s rest l A h Kl L V Hh.
  assert (R : refuses ParseListBegin (b, TopLevel :: l)).
  { destruct (pre_view k b prev TopLevel l (91 :: s) rest V eq_refl (rdy k Kl _ _)) as (b1 & p1 & E1 & V1 & _).
    unfold refuses, ParseListBegin, pre. rewrite E1. cbn [obind].
    destruct (peek_view 4 _ _ _ _ _ V1) as (b2 & -> & V2 & _); [lia|].
    replace (4 <=? length ((91%Z :: s) ++ rest))%nat with false by (cbn [app length]; lia).
    cbn [app firstn]. unfold bad_data. eauto. }
  destruct (first_refuses J _ R) as ((?&?&F1) & (?&?&F2) & (?&?&F3) & (?&?&F4) & (?&?&F5)).
  destruct h; cbn in Hh; try (exfalso; destruct Hh as [Hh|Hh]; apply Hh; reflexivity);
    split; eexists _, _; cbn [call jsonR simpleR rMessageBegin rMapBegin rListBegin rSetBegin]; eassumption.
Qed.

(** A list, set, map or message header: after any number of good parts a part that starts with a
    character no such part starts with. *)
Theorem C70_header : forall J k A (h : rcall A) ds d post ps x rest r l, k <> Loose ->
  Forall2 (part_ok J k) ds ps -> ~ kind_start d x -> ~ In x [32; 9; 10; 13] ->
  readable k (header_text J ps ++ [x]) rest r ->
  (json_header h = ds ++ d :: post -> fails (call (jsonR J) h) (new_breader r, TopLevel :: l)) /\
  (simple_header h = ds ++ d :: post -> fails (call (simpleR J) h) (new_breader r, TopLevel :: l)).
Proof.
  intros J k A h ds d post ps x rest r l Kl F2 M W R.
  assert (W' : is_ws x = false) by (cbn [In] in W; unfold is_ws; lia).
  destruct (Nat.le_gt_cases 3 (length (parts_text J ps ++ [x] ++ rest))) as [L|L]; [now apply (header_fails J k Kl A h ds d post ps x rest)|].
  apply readable_view in R. unfold header_text in R. rewrite <- app_assoc in R. cbn [app] in R.
  rewrite app_assoc in L.
  assert (N : forall X : list kind, X = ds ++ d :: post -> X <> []) by (intros X -> E; destruct ds; discriminate E).
  split; intros H; apply N in H; eapply short_list; eauto.
Qed.
Print Assumptions C70_header.

(** A message of another version. *)
Theorem C70_version_partial : forall J k v rest r l, k <> Loose -> in_s 32 v -> v <> 1 ->
  readable k (header_text J [PNum v]) rest r ->
  fails (call (jsonR J) CMessageBegin) (new_breader r, TopLevel :: l).
Proof.
  intros J k v rest r l Kl Hv N R. apply readable_view in R. unfold header_text, parts_text in R. cbn [flat_map part_text app] in R.
  rewrite app_nil_r in R.
  destruct (Nat.le_gt_cases 3 (length ((FormatInt v ++ [44]) ++ rest))) as [L|L].
  - destruct (ListBegin_view TopLevel k (new_breader r) 0 (FormatInt v ++ [44]) rest l (rdy k Kl _ _) R L) as (b0 & E0 & V0).
    unfold fails. cbn [call jsonR rMessageBegin]. unfold jReadMessageBegin. rewrite E0. cbn [obind]. unfold ReadI32.
    destruct (good_num J k Kl (wraps 32) v ListFirst b0 91 [] rest (TopLevel :: l) V0) as (b1 & p1 & -> & V1);
      [apply (in_s_64 32); [lia|assumption]|now apply wraps_id|reflexivity|].
    cbn [obind]. replace (v =? 1) with false by lia. unfold bad_data. eauto.
  - eapply (short_list J k _ _ _ _ _ _ CMessageBegin Kl L R). left. discriminate.
Qed.
Print Assumptions C70_version_partial.

(** A field header of TJSONProtocol: after a field id something that is no object, or an object
    whose first key is no string. *)
Theorem C70_field : forall J k id part x rest r l, k <> Loose -> in_s 16 id -> ~ In x [32; 9; 10; 13] ->
  (part = [] /\ ~ may_start CStructBegin x) \/ (part = [123] /\ ~ may_start CString x) ->
  readable k ([123] ++ quoted (FormatInt id) ++ [58] ++ part ++ [x]) rest r ->
  exists a s, call (jsonR J) CStructBegin (new_breader r, TopLevel :: l) = Ok (a, None, s) /\
              fails (call (jsonR J) CFieldBegin) s.
Proof.
  intros J k id part x rest r l Kl Hid W0 P R. apply readable_view in R.
  assert (W : is_ws x = false) by (cbn [In] in W0; unfold is_ws; lia).
  change ([123] ++ quoted (FormatInt id) ++ [58] ++ part ++ [x])
    with (sep TopLevel ++ 123 :: quoted (FormatInt id) ++ 58 :: part ++ [x]) in R.
  destruct (ObjectStart_view TopLevel k (new_breader r) 0 _ rest l (rdy k Kl _ _) R) as (b0 & E0 & V0).
  cbn [call jsonR rStructBegin rFieldBegin]. unfold ReadStructBegin. rewrite E0. cbn [obind].
  do 2 eexists. split; [reflexivity|]. unfold fails, jReadFieldBegin. cbn [fst].
  assert (U : exists y u, b_un b0 = y :: u /\ y = 34).
  { cbn [quoted app] in V0. destruct (tight_un _ _ _ _ _ _ Kl V0 (tight_brace _)) as [u U]. eauto. }
  destruct U as (y & u & -> & ->). change ((34 =? 125) || (34 =? 93)) with false. cbv iota.
  destruct (rconv_view J k (wraps 16) ObjFirst id b0 123 (58 :: part ++ [x]) rest (TopLevel :: l) (rdy k Kl _ _)) as (b1 & p1 & E1 & V1);
    [apply (in_s_64 16); [lia|assumption]|now apply wraps_id|exact V0|cbn; tauto|].
  unfold ReadI16. rewrite E1. cbn [obind after_value].
  destruct P as [[-> M]|[-> M]]; cbn [app may_start In] in *.
  - change (58 :: [x]) with (sep NextValue ++ [x]) in V1.
    destruct (object_start NextValue (TopLevel :: l) b1 (x :: rest)) as (a & b2 & ->);
      [eapply bad_pre; eassumption|first [exact W|cbn; lia]..|]. cbn [obind]. eauto.
  - change (58 :: 123 :: [x]) with (sep NextValue ++ 123 :: [x]) in V1.
    destruct (ObjectStart_view NextValue k b1 p1 [x] rest (TopLevel :: l) (rdy k Kl _ _) V1) as (b2 & -> & V2). cbn [obind].
    change [x] with (sep ObjFirst ++ [x]) in V2.
    destruct (bad_str k Kl _ _ _ _ _ (NextValue :: TopLevel :: l) V2 W M) as (a & b3 & ->). cbn [obind]. eauto.
Qed.
Print Assumptions C70_field.

(** What comes where TSimpleJSON expects a name, and is neither a name nor the end of the object, is refused. *)
Theorem C70_name : forall J c l b s x t, unspaced (b_un b) = sep c ++ s -> unspaced s = x :: t -> x <> 34 -> x <> 125 ->
  refuses (call (simpleR J) CFieldBegin) (b, c :: l).
Proof.
  intros J c l b s x t U Us N1 N2. cbn [call simpleR rFieldBegin].
  assert (P : exists b', ParsePreValue (b, c :: l) = Ok (None, (b', c :: l)) /\ b_un b' = x :: t \/
                         ParsePreValue (b, c :: l) = Ok (Some (EProtocol INVALID_DATA), (b', c :: l))).
  { unfold ParsePreValue. cbv zeta.
    assert (E : b_un (skip_ws b) = sep c ++ s) by (cbn [skip_ws b_advance b_un]; now rewrite unspaced_skip).
    assert (Is : unspaced (sep c ++ s) = sep c ++ s).
    { rewrite <- U. clear. induction (b_un b) as [|y u IH]; [reflexivity|]. cbn [unspaced].
      destruct (existsb _ _) eqn:Ex; [exact IH|]. cbn [unspaced]. now rewrite Ex. }
    destruct (sep c) as [|y u] eqn:Es.
    - cbn [app] in *. rewrite Is in Us. exists (skip_ws b). left. rewrite E, Us. split; [|reflexivity].
      destruct c; try discriminate Es; reflexivity.
    - assert (y = 44 /\ c = InList \/ y = 44 /\ c = NextKey \/ y = 58 /\ c = NextValue) as Hy
        by (destruct c; cbn in Es; try discriminate; injection Es as <- _; tauto).
      assert (u = []) as -> by (destruct c; cbn in Es; try discriminate; now injection Es as _ <-).
      exists (skip_ws (b_advance 1 (skip_ws b))). left. cbn [app] in E. rewrite E.
      split; [destruct Hy as [[-> ->]|[[-> ->]|[-> ->]]]; reflexivity|].
      assert (E1 : b_un (b_advance 1 (skip_ws b)) = s).
      { change (b_un (b_advance 1 (skip_ws b))) with (skipn 1 (b_un (skip_ws b))). rewrite E. reflexivity. }
      change (b_un (skip_ws (b_advance 1 (skip_ws b)))) with
        (skipn (ws_prefix (b_un (b_advance 1 (skip_ws b)))) (b_un (b_advance 1 (skip_ws b)))).
      rewrite unspaced_skip, E1. exact Us. }
  destruct P as [b' [[P Eb]|P]]; unfold refuses, sReadFieldBegin, pre; rewrite P; cbn [obind].
  - rewrite Eb. exists ([], STOP, 0), b'.
    destruct (Z.eq_dec x 34); [congruence|]. destruct (Z.eq_dec x 125); [congruence|].
    destruct x as [|q|q]; try reflexivity. repeat (destruct q as [q|q|]; try reflexivity; try congruence).
  - eauto.
Qed.
Print Assumptions C70_name.

(** Malformed texts taken for values without an error: a string with a bad escape is empty, nothing
    is false, an exponent alone and a number out of range are numbers, quotes inside a number are
    skipped, integers and versions are cut off. *)
Theorem C70_refuted :
  (exists b, ReadString (json_r [(lit """a\qb""]", None)]) = Ok ([], None, (b, [TopLevel; TopLevel])) /\ holds b (lit "]")) /\
  (exists b, ReadBool (json_r []) = Ok (false, None, (b, [TopLevel; TopLevel]))) /\
  (exists b, ReadI32 J0 (json_r [(lit "1""2""3,", None)]) = Ok (123, None, (b, [TopLevel; TopLevel]))) /\
  (exists b, ReadI32 J0 (json_r [(lit "e", None)]) = Ok (0, None, (b, [TopLevel; TopLevel]))) /\
  (exists b, ReadByte J0 (json_r [(lit "300", None)]) = Ok (44, None, (b, [TopLevel; TopLevel]))) /\
  (exists s, rMessageBegin (jsonR J0) (json_r [(lit "[4294967297,""m"",1,7,", None)]) = Ok ((lit "m", 1, 7), None, s)).
Proof.
  repeat match goal with |- _ /\ _ => split end; eexists;
    try match goal with |- _ /\ _ => split; [vm_compute; reflexivity|vm_compute; repeat split; constructor] end;
    vm_compute; reflexivity.
Qed.
Print Assumptions C70_refuted.

(** The hypotheses hold of real texts. *)
Example C70_ex :
  unspaced (b_un (fst (s70 " x1" InList))) = lit "x1" /\ no_separator InList 120 /\
  refuses (call (jsonR J0) CI32) (s70 " x1" InList) /\
  holds (fst (s70 ",[1]" InList)) (sep InList ++ 91 :: lit "1]") /\ ~ may_start CString 91 /\
  refuses (call (simpleR J0) CString) (s70 ",[1]" InList) /\
  readable Short (header_text J0 [PNum 8] ++ [123]) (lit "},1]") [(lit "[8,{},1]", None)] /\
  part_ok J0 Short KByte (PNum 8) /\ ~ kind_start KI64 123 /\
  fails (call (jsonR J0) CListBegin) (json_r [(lit "[8,{},1]", None)]) /\
  readable Short (header_text J0 [PNum 2]) (lit """m"",1,7]") [(lit "[2,""m"",1,7]", None)] /\
  fails (call (jsonR J0) CMessageBegin) (json_r [(lit "[2,""m"",1,7]", None)]) /\
  fails (call (simpleR J0) CStructBegin) (simple_r []).
Proof.
  repeat match goal with |- _ /\ _ => split end;
  try (unfold refuses, fails; eexists _, _; vm_compute; reflexivity);
  try (vm_compute; reflexivity); try (cbn; lia).
  - unfold holds. concrete.
  - unfold readable. concrete; [vm_compute; lia|repeat (constructor; [vm_compute; reflexivity|]); constructor].
  - cbn [part_ok]. concrete.
  - unfold readable. concrete; [vm_compute; lia|repeat (constructor; [vm_compute; reflexivity|]); constructor].
Qed.

Example C70_ex_values :
  Forall num_char (lit "1e") /\ misplaced (lit "1e") 101 /\ holds (fst (s70 ",1ee" InList)) (sep InList ++ lit "1e" ++ 101 :: lit "") /\
  refuses (call (jsonR J0) CDouble) (s70 ",1ee" InList) /\ refuses (call (simpleR J0) CI32) (s70 ",1-2]" InList) /\
  body (lit "\""\q") /\ In 34 (lit "\""\q") /\ bad_body (lit "\""\q") /\
  refuses (call (jsonR J0) CString) (s70 ",""\""\q""]" InList) /\
  bad_base64 (lit "QU!D") /\ bad_base64 (lit "QUI") /\ ~ bad_base64 (lit "QUI=") /\
  refuses (call (jsonR J0) CBinary) (s70 ",""QU!D""]" InList) /\ refuses (call (simpleR J0) CBinary) (s70 ",""QUI""]" InList) /\
  readable Short ([123] ++ quoted (FormatInt 7) ++ [58] ++ [123] ++ [49]) (lit "}}") [(lit "{""7"":{1}}", None)].
Proof.
  repeat match goal with |- _ /\ _ => split end;
  try (unfold refuses; eexists _, _; vm_compute; reflexivity).
  - cbn; repeat (apply Forall_cons; [unfold num_char; cbn; lia|]); apply Forall_nil.
  - right; left. split; [cbn; lia|cbn; lia].
  - unfold holds. concrete.
  - repeat first [apply body_nil|apply body_esc|apply body_plain; [discriminate|discriminate|]].
  - cbn; tauto.
  - apply bad_after; [cbn; tauto|]. apply bad_escape. cbn. lia.
  - left. exists (lit "QU"), 33, (lit "D"). split; [reflexivity|]. split; [|unfold b64_digit, newline; lia].
    cbn; repeat (apply Forall_cons; [left; unfold b64_digit; lia|]); apply Forall_nil.
  - right. split; [cbn; repeat (apply Forall_cons; [left; unfold b64_digit; lia|]); apply Forall_nil|cbn; lia].
  - intros [(p & x & u & E & F & N1 & N2 & N3)|[F _]].
    + unfold b64_digit, newline in *. destruct p as [|? [|? [|? [|? p]]]]; cbn in E; injection E; intros; subst; try lia.
      destruct p; discriminate.
    + apply Forall_forall with (x := 61) in F; [|cbn; tauto]. unfold b64_digit, newline in F. lia.
  - unfold readable. concrete; [vm_compute; lia|repeat (constructor; [vm_compute; reflexivity|]); constructor].
Qed.
Example C70_ex_name : unspaced (b_un (fst (s70 " , 7:1}" NextKey))) = sep NextKey ++ lit " 7:1}" /\ unspaced (lit " 7:1}") = 55 :: lit ":1}" /\
  refuses (call (simpleR J0) CFieldBegin) (s70 " , 7:1}" NextKey).
Proof. split; [reflexivity|]. split; [reflexivity|]. unfold refuses. eexists _, _. vm_compute. reflexivity. Qed.
