(** C73, C74. *)
From Coq Require Import String ZArith List Bool Lia.
From Coq Require Import ZifyBool ZifyNat.
From Verif Require Import Base Errors Transport Proto Arith F64 Strconv TField GoVal Compare CompareProofs TList TSet TMap.
From Verif Require Import Values Gen Names Consts ConstSpec ConstProofs.
From Verif Require Import WfDec Binary.
Import ListNotations.
Open Scope Z_scope.
Local Open Scope list_scope.
Local Notation length := List.length.
Local Notation concat := List.concat.

Definition extp : ext :=
  MkExt (fun _ => []) (fun _ => []) (fun _ => (0, None)) (fun _ => 0) (fun _ l => rev l) (fun _ _ => false).

(** ** C73: constants *)

Lemma const_fresh : forall X tname cname n, cpp_ok X -> fresh_from X (const_name tname cname) n.
Proof.
  intros X tname cname n (_ & XH & _) c m _ Hc E.
  assert (H : hd_error (const_name tname cname) = Some c) by (rewrite E; apply XH).
  unfold const_name in H. destruct tname as [|a tn]; cbn in H; [injection H; lia|].
  injection H as H. unfold toupper, islower, isupper in H.
  destruct ((65 <=? a) && (a <=? 90)) eqn:E1; cbn in H; [lia|].
  destruct ((97 <=? a) && (a <=? 122)) eqn:E2; lia.
Qed.

Theorem C73_const_partial : forall x f round10 structs X t tname cname c n,
  cpp_ok X -> good structs X round10 false c t ->
  (direct t = true -> t <> KBinary) ->
  exists d n', generate_const X t (const_name tname cname) c n = Some (d, n') /\
    match run_decl x (S f) round10 structs d with
    | Some (VConst r) => direct t = true /\ exists v, convert round10 (go_type t) r = Some v /\ denotes structs false t c v
    | Some (VVar v) => direct t = false /\ denotes structs false t c v
    | None => False
    end.
Proof.
  intros x f round10 structs X t tname cname c n HX G NB.
  pose proof (const_fresh X tname cname n HX) as Fr. set (name := const_name tname cname) in *.
  destruct HX as (XT & _ & XE). unfold generate_const.
  destruct (render_total round10 structs X c false t name n G) as [[[e b] n'] R].
  destruct (rendered_all x f round10 structs X XT XE c false t name n e b n' G R Fr) as [_ H].
  change (Consts.render X) with (render X). rewrite R.
  destruct (direct t) eqn:D.
  - pose proof (direct_block X c t name n e b n' D R) as ->.
    exists (DConst name e), n'. split; [reflexivity|].
    destruct H as (r & Ev & _ & H). destruct (H eq_refl) as [(u & Cv & Du) Hr].
    cbn. rewrite Ev. destruct r as [z|m k|s|bb|g w]; try (split; [reflexivity|]; eauto; fail).
    pose proof (Hr g w eq_refl) as ->. specialize (NB eq_refl).
    destruct t; cbn in D; try discriminate; try congruence; destruct c; cbn in R; try discriminate;
      apply some_pair in R as [R _]; injection R as <- <-; cbn in Ev; try discriminate;
      try (destruct (cx_double X b) as [?|[? ?]]; discriminate);
      try (destruct (go_literal (cx_escape X s)); discriminate).
  - eexists (DVar name t _), n'. split; [reflexivity|]. cbn [run_decl].
    destruct b as [ss|].
    + destruct H as (g & w0 & v & Ev & Dv & _ & _ & Ug & U & As & H).
      assert (Ex : exec x (S f) round10 structs (with_block (SAssign name e) (Some ss)) [[(name, (go_type t, ANil))]] =
                   Some [[(name, (go_type t, v))]]).
      { unfold with_block.
        apply (exec_step x f round10 structs _ _ _ [[(name, (go_type t, w0))]]).
        { cbn [exec1]. rewrite Ev. cbn [find sfind]. rewrite beq_refl. cbn [convert]. unfold guard. rewrite As.
          cbn [option_map update sfind supd]. rewrite beq_refl. reflexivity. }
        apply (exec_step x f round10 structs _ _ _ [[(name, (go_type t, v))]]); [|reflexivity].
        rewrite (H _ (go_type t)); [|cbn; rewrite beq_refl; reflexivity|exact U].
        cbn. rewrite beq_refl. reflexivity. }
      rewrite Ex. cbn [find sfind]. rewrite beq_refl. split; [reflexivity|exact Dv].
    + destruct H as (r & Ev & _ & H). destruct (H eq_refl) as [(u & Cv & Du) _].
      unfold with_block. cbn [exec exec1]. rewrite Ev. cbn [find sfind]. rewrite beq_refl, Cv.
      cbn [option_map update sfind supd]. rewrite beq_refl. cbn [find sfind]. rewrite beq_refl.
      split; [reflexivity|exact Du].
Qed.
Print Assumptions C73_const_partial.

(** *** The compiler's own helpers, for the examples *)

(** tmp(): prefix and counter in decimal. *)
Fixpoint decimals (f : nat) (n : Z) : bytes :=
  match f with
  | O => [48 + n]
  | S f' => if n <? 10 then [48 + n] else decimals f' (n / 10) ++ [48 + n mod 10]
  end.
Definition undecimals (s : bytes) : Z := fold_left (fun a c => 10 * a + (c - 48)) s 0.
Lemma undecimals_decimals : forall f n, 0 <= n <= Z.of_nat f -> undecimals (decimals f n) = n.
Proof.
  induction f as [|f IH]; intros n H; unfold undecimals in *; cbn [decimals].
  - cbn [fold_left]. lia.
  - destruct (Z.ltb_spec n 10); [cbn [fold_left]; lia|].
    rewrite fold_left_app. rewrite IH.
    + cbn [fold_left]. pose proof (Z.div_mod n 10). lia.
    + split; [apply Z.div_pos; lia|]. apply Z.div_le_upper_bound; lia.
Qed.
(** get_escaped_string with the escapes of t_generator. *)
Definition escape1 (c : Z) : bytes :=
  if c =? 10 then [92; 110] else if c =? 13 then [92; 114] else if c =? 9 then [92; 116]
  else if c =? 34 then [92; 34] else if c =? 92 then [92; 92] else [c].
(** A double as six significant digits: 2.0 is 2, 1234567.0 is 1.23457e+06, 0.5 is 0.5. *)
Definition X0 : cpp := MkCpp (fun c n => c :: decimals n (Z.of_nat n))
  (fun b => if b =? f64_of_Z 1234567 then inr (123457, 1) else if b =? f64_of_Z 2 then inl 2 else inr (5, -1))
  (fun s => concat (map escape1 s)).
Definition round0 (m e : Z) : Z := if e <? 0 then 0x3fe0000000000000 else f64_of_Z (m * 10 ^ e).

Lemma escape_literal : forall s, go_literal (concat (map escape1 s)) = Some s.
Proof.
  induction s as [|c s IH]; [reflexivity|]. cbn [map List.concat].
  generalize dependent (concat (map escape1 s)). intros r IH. unfold escape1.
  destruct (Z.eqb_spec c 10) as [->|]; [cbn; rewrite IH; reflexivity|].
  destruct (Z.eqb_spec c 13) as [->|]; [cbn; rewrite IH; reflexivity|].
  destruct (Z.eqb_spec c 9) as [->|]; [cbn; rewrite IH; reflexivity|].
  destruct (Z.eqb_spec c 34) as [->|]; [cbn; rewrite IH; reflexivity|].
  destruct (Z.eqb_spec c 92) as [->|]; [cbn; rewrite IH; reflexivity|].
  cbn [app go_literal]. replace (c =? 92) with false by lia. replace (c =? 34) with false by lia.
  replace (c =? 10) with false by lia. cbn. rewrite IH. reflexivity.
Qed.
Lemma X0_ok : cpp_ok X0.
Proof.
  split; [|split].
  - cbn. intros c n c' n' H. injection H as -> H. split; [reflexivity|].
    assert (E : undecimals (decimals n (Z.of_nat n)) = undecimals (decimals n' (Z.of_nat n'))) by (rewrite H; reflexivity).
    rewrite !undecimals_decimals in E by lia. lia.
  - reflexivity.
  - intros s _. apply escape_literal.
Qed.

(** struct shape { 1: string label; 2: list<i32> sides; 3: set<i32> ids } *)
Definition shape_ms : list (Z * bytes * cty) :=
  [(1, lit "label", KString); (2, lit "sides", KList KI32); (3, lit "ids", KSet KI32)].
Definition shape0 : any :=
  AStruct 0 (lit "shape") (NewTFieldContainer 0 []) [(1, AStr []); (2, AList 0 I32 []); (3, ASet 0 I32 0 [])].
Definition shapes (go : bytes) : option (list (bytes * (Z * cty)) * any) :=
  if beq go (publicize (lit "shape")) then option_map (fun d => (d, shape0)) (declare shape_ms) else None.

(** const shape SQUARE = {"label": "a \"b\"", "sides": [1, -1, 2], "ids": [1, 2]} *)
Definition square : cval := CMap
  [(CStr (lit "label"), CStr [97; 32; 34; 98; 34]); (CStr (lit "sides"), CList [CInt 1; CInt (-1); CInt 2]);
   (CStr (lit "ids"), CList [CInt 1; CInt 2])].
Example C73_const_ex :
  good shapes X0 round0 false square (KTypedef (lit "alias") (KStruct (lit "shape") shape_ms)) /\
  good shapes X0 round0 false (CMap [(CStr [98], CList [CInt 7]); (CStr [97], CList [])]) (KMap KString (KList KI64)) /\
  good shapes X0 round0 false (CDbl (f64_of_Z 2)) KDouble /\
  match generate_const X0 (KStruct (lit "shape") shape_ms) (const_name (lit "demo") (lit "SQUARE")) square 0 with
  | Some (d, _) => run_decl extp 1 round0 shapes d
  | None => None
  end = Some (VVar (AStruct 0 (lit "shape") (NewTFieldContainer 0 [])
                 [(1, AStr [97; 32; 34; 98; 34]); (2, AList 0 I32 [AInt32 1; AInt32 (-1); AInt32 2]);
                  (3, ASet 0 I32 2 [AInt32 2; AInt32 1])])).
Proof.
  split; [|split; [|split; [|vm_compute; reflexivity]]].
  - cbn [good true_type square]. split; [|split].
    + split; [|split].
      * repeat constructor; cbn; intuition discriminate.
      * vm_compute. repeat constructor; cbn; intuition discriminate.
      * do 3 eexists. repeat split; reflexivity.
    + repeat constructor; cbn; intuition discriminate.
    + cbn [all fst snd]. split; [|split; [|split; [|exact I]]].
      * exists (lit "label"), 1, KString. split; [reflexivity|]. split; [left; reflexivity|].
        split; [split; [reflexivity|left; reflexivity]|]. cbn. concrete.
      * exists (lit "sides"), 2, (KList KI32). split; [reflexivity|]. split; [right; left; reflexivity|].
        split; [split; [reflexivity|right; exact I]|]. cbn. unfold in_s. lia.
      * exists (lit "ids"), 3, (KSet KI32). split; [reflexivity|]. split; [right; right; left; reflexivity|].
        split; [split; [reflexivity|right; exact I]|]. cbn. split; [unfold in_s; lia|].
        exists [AInt32 1; AInt32 2]. split; [repeat constructor; unfold in_s; lia|].
        split; [repeat constructor; unfold in_s; lia|].
        intros h1 a h2 E. destruct h1 as [|o1 h1]; [injection E as <- _; left; intros v Hv (k1 & b & k2 & C & _); destruct k1; discriminate|].
        right. injection E as <- E.
        destruct h1 as [|o1 h1]; [injection E as <- _|injection E as <- E; destruct h1; discriminate].
        exists (AInt32 1). split; [constructor; unfold in_s; lia|]. split; [|cbn; lia].
        exists [], (AInt32 1), []. repeat split. intros b [].
  - cbn. split.
    + repeat split; try concrete; try (unfold in_s; lia); right; exact I.
    + exists [AStr [98]; AStr [97]]. split; [repeat constructor|]. split; [|reflexivity].
      repeat constructor; unfold is_byte; lia.
  - cbn. split; [unfold in_s; lia|reflexivity].
Qed.

(** *** Constants that do not get their meaning *)

(** Which strings stand for themselves in a Go literal, so that only the others need cx_escape: those without a quote,
    a line feed or a backslash. *)
Lemma literal_length : forall n s r, (length s <= n)%nat -> go_literal s = Some r ->
  (length r <= length s)%nat /\ (In 92 s -> (length r < length s)%nat) /\ ~ In 10 s /\ (In 34 s -> In 92 s).
Proof.
  induction n as [|n IH]; intros s r L E.
  { destruct s; [|cbn in L; lia]. injection E as <-. repeat split; cbn; auto; tauto. }
  destruct s as [|c s]; [injection E as <-; repeat split; cbn; auto; tauto|]. cbn [go_literal] in E.
  destruct (Z.eqb_spec c 92) as [->|N92].
  - destruct s as [|d s]; [discriminate|]. destruct (go_escape d) as [b|] eqn:Ed; [|discriminate].
    destruct (go_literal s) as [r'|] eqn:E'; [|discriminate]. injection E as <-.
    destruct (IH s r' ltac:(cbn in L; lia) E') as (A & _ & C & _). cbn [length]. split; [lia|]. split; [intros; lia|].
    split; [|intros; left; reflexivity]. intros [H|[H|H]]; [discriminate H| |tauto]. subst d. discriminate Ed.
  - destruct ((c =? 34) || (c =? 10)) eqn:B; [discriminate|]. destruct (go_literal s) as [r'|] eqn:E'; [|discriminate].
    injection E as <-. destruct (IH s r' ltac:(cbn in L; lia) E') as (A & A' & C & D). cbn [length]. split; [lia|].
    split; [intros [H|H]; [lia|specialize (A' H); lia]|]. split; [intros [H|H]; [lia|tauto]|].
    intros [H|H]; [lia|right; tauto].
Qed.
Theorem C73_bare : forall s, go_literal s = Some s <-> Forall (fun c => c <> 34 /\ c <> 10 /\ c <> 92) s.
Proof.
  intro s. split.
  - intro E. destruct (literal_length (length s) s s (le_n _) E) as (_ & A & B & C). apply Forall_forall. intros c Hc.
    assert (N : ~ In 92 s) by (intro H; specialize (A H); lia).
    repeat split; intros ->; tauto.
  - intro F. induction F as [|c s (A & B & C) F IH]; [reflexivity|]. cbn [go_literal].
    replace (c =? 92) with false by lia. replace (c =? 34) with false by lia. replace (c =? 10) with false by lia.
    cbn. rewrite IH. reflexivity.
Qed.
Print Assumptions C73_bare.
Example C73_bare_ex : go_literal (lit "it's") = Some (lit "it's") /\ go_literal [115; 34] = None /\ go_literal [92; 34] = Some [34].
Proof. vm_compute. auto. Qed.


(** const binary B = "ab": const Demo_B = []byte("ab") does not compile. *)
Theorem C73_binary_refuted : exists c, 
  denotes shapes false KBinary c (ABytes [97; 98]) /\
  forall x f round10, exists d n, generate_const X0 KBinary (const_name (lit "demo") (lit "B")) c 0 = Some (d, n) /\
    run_decl x f round10 shapes d = None.
Proof. exists (CStr [97; 98]). split; [constructor|]. intros. do 2 eexists. split; reflexivity. Qed.
Print Assumptions C73_binary_refuted.

(** const set<i32> S = [2, 1]: 1 is missing. *)
Theorem C73_set_refuted : exists c,
  denotes shapes false (KSet KI32) c (ASet 0 I32 2 [AInt32 2; AInt32 1]) /\
  forall x f round10, exists d n, generate_const X0 (KSet KI32) (const_name (lit "demo") (lit "S")) c 0 = Some (d, n) /\
    run_decl x (S f) round10 shapes d = Some (VVar (ASet 0 I32 2 [AInt32 2])).
Proof.
  exists (CList [CInt 2; CInt 1]). split.
  - apply (d_set shapes false KI32 _ [AInt32 2; AInt32 1]).
    + repeat constructor; unfold in_s; lia.
    + auto.
    + intros v Hv. exists v. split; [exact Hv|]. destruct Hv as [<-|[<-|[]]]; reflexivity.
    + repeat constructor. discriminate.
  - intros. do 2 eexists. split; [reflexivity|]. cbn. reflexivity.
Qed.
Print Assumptions C73_set_refuted.

(** const map<string, i32> M = {"a": 2}: the value is an int, not an int32, and writing the map
    panics. *)
Theorem C73_map_refuted : exists c,
  denotes shapes false (KMap KString KI32) c (AMap 0 STRING I32 1 [] [(AStr [97], AInt32 2)]) /\
  forall x f round10, exists d n v,
    generate_const X0 (KMap KString KI32) (const_name (lit "demo") (lit "M")) c 0 = Some (d, n) /\
    run_decl x (S f) round10 shapes d = Some (VVar v) /\
    v = AMap 0 STRING I32 1 [] [(AStr [97], AInt 2)] /\
    forall strict, gwrite (binaryW strict) extp 9 (TyMap TyString TyI32) v (MkWt [] []) = Panic.
Proof.
  exists (CMap [(CStr [97], CInt 2)]). split.
  - apply (d_map shapes false KString KI32 _ [(AStr [97], AInt32 2)]).
    + constructor; [split; cbn; [apply d_string|apply d_i32; unfold in_s; lia]|constructor].
    + intros k v [H|[]]. injection H as <- <-. exists [], (AStr [97]), []. split; [reflexivity|]. split; [reflexivity|]. intros k2 v2 [].
    + intros k v [<-|[]] (ps1 & k1 & ps2 & E & Q & L). exists (AStr [97]). split; [|reflexivity].
      destruct ps1 as [|p1 ps1]; [injection E as <- <- _; left; reflexivity|]. destruct ps1; discriminate.
    + repeat constructor.
  - intros. do 3 eexists. split; [reflexivity|]. split; [cbn; reflexivity|]. split; [reflexivity|].
    intros []; vm_compute; reflexivity.
Qed.
Print Assumptions C73_map_refuted.

(** struct box { 1: count n }, typedef i32 count, const box X = {"n": 5}: v := 5; Demo_X.N = v does
    not compile. *)
Definition one_member (f : bytes) (t : cty) (z : any) (go : bytes) : option (list (bytes * (Z * cty)) * any) :=
  if beq go (publicize (lit "box"))
  then option_map (fun d => (d, AStruct 0 (lit "box") (NewTFieldContainer 0 []) [(1, z)])) (declare [(1, f, t)]) else None.
Lemma one_denotes : forall f t z c v, (forall c', c' = c -> denotes (one_member f t z) false t c' v) ->
  denotes (one_member f t z) false (KStruct (lit "box") [(1, f, t)]) (CMap [(CStr f, c)])
    (AStruct 0 (lit "box") (NewTFieldContainer 0 []) [(1, v)]).
Proof.
  intros f t z c v H. eapply d_struct; [reflexivity|reflexivity| |].
  - intros id f' ft c' [E|[]] [E'|[]]. injection E as <- <- <-. injection E' as <-. apply H. reflexivity.
  - intros id f' ft [E|[]] N. injection E as <- <- <-. destruct (N c). left. reflexivity.
Qed.
Theorem C73_typedef_member_refuted : exists structs t c v, denotes structs false t c v /\
  forall x f round10, exists d n, generate_const X0 t (const_name (lit "demo") (lit "X")) c 0 = Some (d, n) /\
    run_decl x f round10 structs d = None.
Proof.
  exists (one_member (lit "n") (KTypedef (lit "count") KI32) (AInt32 0)), (KStruct (lit "box") [(1, lit "n", KTypedef (lit "count") KI32)]),
    (CMap [(CStr (lit "n"), CInt 5)]), (AStruct 0 (lit "box") (NewTFieldContainer 0 []) [(1, AInt32 5)]).
  split.
  - apply one_denotes. intros c ->. constructor. constructor. unfold in_s. lia.
  - intros. do 2 eexists. split; reflexivity.
Qed.
Print Assumptions C73_typedef_member_refuted.

(** struct box { 1: string type }, const box X = {"type": "a"}: the member is called TypeA1 and the
    code says Demo_X.Type. *)
Theorem C73_reserved_member_refuted : exists structs t c v, denotes structs false t c v /\
  forall x f round10, exists d n, generate_const X0 t (const_name (lit "demo") (lit "X")) c 0 = Some (d, n) /\
    run_decl x f round10 structs d = None.
Proof.
  exists (one_member (lit "type") KString (AStr [])), (KStruct (lit "box") [(1, lit "type", KString)]),
    (CMap [(CStr (lit "type"), CStr [97])]), (AStruct 0 (lit "box") (NewTFieldContainer 0 []) [(1, AStr [97])]).
  split.
  - apply one_denotes. intros c ->. constructor.
  - intros. do 2 eexists. split; reflexivity.
Qed.
Print Assumptions C73_reserved_member_refuted.

(** struct box { 1: byte b }, const box X = {"b": -1}: a Go byte has no -1. *)
Theorem C73_byte_refuted : exists structs t c v, denotes structs false t c v /\
  forall x f round10, exists d n, generate_const X0 t (const_name (lit "demo") (lit "X")) c 0 = Some (d, n) /\
    run_decl x f round10 structs d = None.
Proof.
  exists (one_member (lit "b") KByte (AByte 0)), (KStruct (lit "box") [(1, lit "b", KByte)]),
    (CMap [(CStr (lit "b"), CInt (-1))]), (AStruct 0 (lit "box") (NewTFieldContainer 0 []) [(1, AByte 255)]).
  split.
  - apply one_denotes. intros c ->. apply (d_byte _ false (-1)). unfold in_s. lia.
  - intros. do 2 eexists. split; reflexivity.
Qed.
Print Assumptions C73_byte_refuted.

(** const double D = 1234567.0 with the six digits a C++ stream prints: const Demo_D = 1.23457e+06. *)
Theorem C73_double_refuted : exists c,
  denotes shapes false KDouble c (AF64 (f64_of_Z 1234567)) /\
  exists d n r, generate_const X0 KDouble (const_name (lit "demo") (lit "D")) c 0 = Some (d, n) /\
    run_decl extp 1 round0 shapes d = Some (VConst r) /\
    convert round0 GtF64 r = Some (AF64 (f64_of_Z 1234570)) /\ f64_of_Z 1234570 <> f64_of_Z 1234567.
Proof.
  exists (CDbl (f64_of_Z 1234567)). split; [constructor|]. do 3 eexists. split; [vm_compute; reflexivity|].
  split; [vm_compute; reflexivity|]. split; [vm_compute; reflexivity|vm_compute; discriminate].
Qed.
Print Assumptions C73_double_refuted.

(** ** C74: default values *)

(** The members without their defaults. *)
Definition plain (m : Z * bytes * cty * option cval) : Z * bytes * cty := fst m.

(** A default the constructor handles: of a base type or enum, or an empty container or struct. *)
Definition simple_default structs X round10 (m : Z * bytes * cty * option cval) : Prop :=
  match snd m with
  | None => True
  | Some c => good structs X round10 false c (snd (plain m)) /\
      (direct (true_type (snd (plain m))) = true \/ c = CList [] \/ c = CMap [])
  end.

(** What a member of a new object should hold, given what it holds without a constructor. *)
Definition initial structs (m : Z * bytes * cty * option cval) (zero v : any) : Prop :=
  match snd m, true_type (snd (plain m)) with
  | Some c, _ => denotes structs false (snd (plain m)) c v
  | None, KEnum tag n cs => v = mk_enum tag n cs enum_unset
  | None, _ => v = zero
  end.

Lemma render_true : forall X c t name n, render X c (true_type t) name n = render X c t name n.
Proof. intros X c t name n. destruct c; cbn [render]; rewrite true_true; reflexivity. Qed.

Section Ctor.
Variable x : ext.
Variable f : nat.
Variable round10 : Z -> Z -> Z.
Variable structs : bytes -> option (list (bytes * (Z * cty)) * any).
Variable X : cpp.
Hypothesis HX : cpp_ok X.

(** The expression of a simple default, as it is assigned. *)
Lemma default_value : forall c t name n e b n', good structs X round10 false c t ->
  direct (true_type t) = true \/ c = CList [] \/ c = CMap [] ->
  render X c (true_type t) name n = Some (e, b, n') ->
  (b = None \/ b = Some []) /\
  exists r v, eval structs e = Some r /\ convert round10 (go_type t) r = Some v /\ denotes structs false t c v.
Proof.
  intros c t name n e b n' G S R. destruct HX as (XT & _ & XE).
  assert (R' : exists name', fresh_from X name' n /\ render X c t name' n = Some (e, b, n')).
  { exists (cx_tmp X 0 0). split.
    - intros ch m _ Hc E. apply XT in E as [E _]. lia.
    - rewrite <- render_true. destruct S as [D|[-> | ->]].
      + destruct (true_type t) eqn:T; try (destruct (true_not_typedef t _ _ T)); cbn in D; try discriminate;
          destruct c; cbn in R |- *; exact R.
      + destruct (true_type t) eqn:T; try (destruct (true_not_typedef t _ _ T)); cbn in R |- *; try discriminate; try exact R.
      + destruct (true_type t) eqn:T; try (destruct (true_not_typedef t _ _ T)); cbn in R |- *; try discriminate; try exact R. }
  destruct R' as (name' & Fr & R').
  destruct (rendered_all x f round10 structs X XT XE c false t name' n e b n' G R' Fr) as [_ H].
  destruct b as [ss|].
  - assert (ss = []) as ->.
    { rewrite <- render_true in R'. destruct S as [D|[-> | ->]].
      - pose proof (direct_block X c (true_type t) name' n e (Some ss) n' D R'). discriminate.
      - destruct (true_type t) eqn:T; try (destruct (true_not_typedef t _ _ T)); cbn in R'; try discriminate; try congruence.
      - destruct (true_type t) eqn:T; try (destruct (true_not_typedef t _ _ T)); cbn in R'; try discriminate; try congruence. }
    split; [right; reflexivity|].
    destruct H as (g & w0 & v & Ev & D & _ & _ & Ug & U & As & H).
    exists (RVal g w0), w0. split; [exact Ev|]. split; [cbn; rewrite As; reflexivity|].
    specialize (H [[(name', (g, w0))]] g). cbn in H. rewrite beq_refl in H. specialize (H eq_refl Ug).
    injection H as ->. exact D.
  - split; [left; reflexivity|]. destruct H as (r & Ev & _ & H). destruct (H eq_refl) as [(u & Cv & D) _].
    exists r, u. auto.
Qed.

Variable sn go : bytes.
Variable fc : fcont.
Definition obj (attrs : list (Z * any)) : list scope := [[(output_name, (GtPtr go, AStruct 0 sn fc attrs))]].

Lemma obj_set : forall dms v0 fn id t attrs r u, structs go = Some (dms, v0) -> mfind dms fn = Some (id, t) ->
  convert round10 (go_type t) r = Some u ->
  set_field round10 structs (obj attrs) output_name fn r = Some (obj (attr_set attrs id u)).
Proof. intros dms v0 fn id t attrs r u S M C. unfold set_field, obj. cbn. rewrite S, M, C. reflexivity. Qed.

Lemma enum_unset_fits : fits 64 enum_unset = true.
Proof. reflexivity. Qed.

Lemma ctor_loop : forall all dms v0 ms n, NoDup (map (fun m => fst (fst m)) all) ->
  NoDup (map (fun m => member_name (snd (fst m))) all) ->
  declare all = Some dms -> structs go = Some (dms, v0) ->
  (forall m, In m ms -> In (plain m) all) -> NoDup (map (fun m => fst (fst (plain m))) ms) ->
  Forall (simple_default structs X round10) ms ->
  exists ss n', ctor_body X ms n = Some (ss, n') /\
  forall attrs, map fst attrs = map (fun m => fst (fst m)) all ->
  exists attrs', exec x (S f) round10 structs ss (obj attrs) = Some (obj attrs') /\
    map fst attrs' = map fst attrs /\
    (forall m, In m ms -> initial structs m (attribute attrs (fst (fst (plain m)))) (attribute attrs' (fst (fst (plain m))))) /\
    (forall id, ~ In id (map (fun m => fst (fst (plain m))) ms) -> attribute attrs' id = attribute attrs id).
Proof.
  intros all dms v0 ms. induction ms as [|[[[id name] t] d] ms IH]; intros n Di Dn Dc St Sub Dm Hs.
  - exists [], n. split; [reflexivity|]. intros attrs Ids. exists attrs.
    split; [reflexivity|]. split; [reflexivity|]. split; [intros m []|auto].
  - inversion Hs as [|? ? H1 H2]; subst. cbn in Dm. inversion Dm as [|? ? Dm1 Dm2]; subst.
    assert (Im : In (id, name, t) all) by (apply (Sub (id, name, t, d)); left; reflexivity).
    pose proof (mfind_in all dms id name t Dc Dn Im) as Mf.
    assert (Iid : forall attrs : list (Z * any), map fst attrs = map (fun m : Z * bytes * cty => fst (fst m)) all -> In id (map fst attrs)).
    { intros attrs ->. apply in_map_iff. exists (id, name, t). auto. }
    assert (Sub' : forall m, In m ms -> In (plain m) all) by (intros m Hm; apply Sub; right; exact Hm).
    (* the member set to u, then the rest *)
    assert (Step : forall u (attrs attrs' : list (Z * any)), map fst attrs = map (fun m : Z * bytes * cty => fst (fst m)) all ->
      initial structs (id, name, t, d) (attribute attrs id) u ->
      map fst attrs' = map fst (attr_set attrs id u) ->
      (forall m, In m ms -> initial structs m (attribute (attr_set attrs id u) (fst (fst (plain m)))) (attribute attrs' (fst (fst (plain m))))) ->
      (forall id0, ~ In id0 (map (fun m => fst (fst (plain m))) ms) -> attribute attrs' id0 = attribute (attr_set attrs id u) id0) ->
      map fst attrs' = map fst attrs /\
      (forall m, In m ((id, name, t, d) :: ms) -> initial structs m (attribute attrs (fst (fst (plain m)))) (attribute attrs' (fst (fst (plain m))))) /\
      (forall id0, ~ In id0 (map (fun m => fst (fst (plain m))) ((id, name, t, d) :: ms)) -> attribute attrs' id0 = attribute attrs id0)).
    { intros u attrs attrs' Ids Hu A0 A1 A2. split; [rewrite A0, attr_fst; reflexivity|]. split.
      - intros m [<-|Hm].
        + cbn [plain fst]. rewrite (A2 id Dm1), attr_same by auto. exact Hu.
        + specialize (A1 m Hm). rewrite attr_other in A1; [exact A1|].
          intros Q. apply Dm1. rewrite <- Q. apply in_map_iff. exists m. auto.
      - intros id0 H0. cbn [map plain fst] in H0. rewrite A2; [|intros Q; apply H0; right; exact Q].
        apply attr_other. intros ->. apply H0. left. reflexivity. }
    destruct d as [c|].
    + destruct H1 as [G Sd]. cbn [snd plain fst] in G, Sd.
      destruct (render_total round10 structs X c false t name n G) as [[[e b] n1] R].
      rewrite <- render_true in R.
      destruct (default_value c t name n e b n1 G Sd R) as [Hb (r & v & Ev & Cv & Dv)].
      destruct (IH n1 Di Dn Dc St Sub' Dm2 H2) as (ss & n2 & Cb & H3).
      exists (with_block (SField output_name (member_name name) e) b ++ ss), n2.
      split; [cbn [ctor_body]; rewrite R, Cb; reflexivity|].
      intros attrs Ids. destruct (H3 (attr_set attrs id v)) as (attrs' & Ex & A0 & A1 & A2); [rewrite attr_fst; exact Ids|].
      exists attrs'. destruct (Step v attrs attrs' Ids Dv A0 A1 A2) as (S1 & S2 & S3).
      split; [|auto].
      assert (Hf : exec1 x (S f) round10 structs (SField output_name (member_name name) e) (obj attrs) = Some (obj (attr_set attrs id v))).
      { cbn [exec1]. rewrite Ev. exact (obj_set dms v0 _ id t attrs r v St Mf Cv). }
      destruct Hb as [-> | ->]; cbn [with_block app];
        apply (exec_step x f round10 structs _ _ _ _ _ Hf); [exact Ex|].
      apply (exec_step x f round10 structs _ _ _ (obj (attr_set attrs id v))); [reflexivity|exact Ex].
    + destruct (IH n Di Dn Dc St Sub' Dm2 H2) as (ss & n2 & Cb & H3).
      cbn [ctor_body]. rewrite Cb. eexists _, n2. split; [reflexivity|]. intros attrs Ids.
      assert (Zero : match true_type t with KEnum _ _ _ => False | _ => True end -> 
        exists attrs', exec x (S f) round10 structs ss (obj attrs) = Some (obj attrs') /\ map fst attrs' = map fst attrs /\
        (forall m, In m ((id, name, t, None) :: ms) -> initial structs m (attribute attrs (fst (fst (plain m)))) (attribute attrs' (fst (fst (plain m))))) /\
        (forall id0, ~ In id0 (map (fun m => fst (fst (plain m))) ((id, name, t, None) :: ms)) -> attribute attrs' id0 = attribute attrs id0)).
      { intros Hz. destruct (H3 attrs Ids) as (attrs' & Ex & A0 & A1 & A2). exists attrs'. split; [exact Ex|].
        split; [exact A0|]. split.
        - intros m [<-|Hm]; [|auto]. cbn [plain fst]. rewrite (A2 id Dm1). unfold initial. cbn [plain fst snd].
          destruct (true_type t); try contradiction; reflexivity.
        - intros id0 H0. apply A2. intros Q. apply H0. right. exact Q. }
      destruct (true_type t) as [| | | | | | | |tag en cs| | | | |] eqn:T; try (apply Zero; exact I).
      set (u := mk_enum tag en cs enum_unset).
      destruct (H3 (attr_set attrs id u)) as (attrs' & Ex & A0 & A1 & A2); [rewrite attr_fst; exact Ids|].
      exists attrs'. destruct (Step u attrs attrs' Ids) as (S1 & S2 & S3); auto.
      { unfold initial. cbn [plain fst snd]. rewrite T. reflexivity. }
      split; [|auto].
      apply (exec_step x f round10 structs _ _ _ (obj (attr_set attrs id u))); [|exact Ex].
      cbn [exec1 eval].
      apply (obj_set dms v0 _ id t attrs (RInt enum_unset) u St Mf). cbn [convert]. rewrite under_go, T. reflexivity.
Qed.
End Ctor.

(** New<Name>() with such defaults returns an object in which every member holds its default; an
    enum without one is unset, anything else without one is zero. *)
Theorem C74_constructor_partial : forall x f round10 structs X sn fc ms n dms v0 attrs,
  cpp_ok X ->
  NoDup (map (fun m => fst (fst (plain m))) ms) ->
  NoDup (map (fun m => member_name (snd (fst (plain m)))) ms) ->
  declare (map plain ms) = Some dms -> structs (publicize sn) = Some (dms, v0) ->
  Forall (simple_default structs X round10) ms ->
  map fst attrs = map (fun m => fst (fst (plain m))) ms ->
  exists ss n' attrs', ctor_body X ms n = Some (ss, n') /\
    exec x (S f) round10 structs ss [[(output_name, (GtPtr (publicize sn), AStruct 0 sn fc attrs))]] =
      Some [[(output_name, (GtPtr (publicize sn), AStruct 0 sn fc attrs'))]] /\
    map fst attrs' = map fst attrs /\
    forall m, In m ms ->
      initial structs m (attribute attrs (fst (fst (plain m)))) (attribute attrs' (fst (fst (plain m)))).
Proof.
  intros x f round10 structs X sn fc ms n dms v0 attrs HX Di Dn Dc St Hs Ids.
  destruct (ctor_loop x f round10 structs X HX sn (publicize sn) fc (map plain ms) dms v0 ms n) as (ss & n' & Cb & H).
  - rewrite map_map. exact Di.
  - rewrite map_map. exact Dn.
  - exact Dc.
  - exact St.
  - intros m Hm. apply in_map. exact Hm.
  - exact Di.
  - exact Hs.
  - destruct (H attrs) as (attrs' & Ex & A0 & A1 & _); [rewrite map_map; exact Ids|].
    exists ss, n', attrs'. auto.
Qed.
Print Assumptions C74_constructor_partial.

(** struct s { 1: i32 a = 5; 2: color c; 3: list<string> l = []; 4: string type = "x"; 5: bool b } *)
Definition color : cty := KEnum 7 (lit "color") [(lit "RED", 1)].
Definition s_ms : list (Z * bytes * cty * option cval) :=
  [(1, lit "a", KTypedef (lit "count") KI32, Some (CInt 5)); (2, lit "c", color, None);
   (3, lit "l", KList KString, Some (CList [])); (4, lit "type", KString, Some (CStr [120])); (5, lit "b", KBool, None)].
Definition s_structs (go : bytes) : option (list (bytes * (Z * cty)) * any) :=
  if beq go (publicize (lit "s")) then option_map (fun d => (d, ANil)) (declare (map plain s_ms)) else None.
Definition s_zero : list (Z * any) :=
  [(1, AInt32 0); (2, mk_enum 7 (lit "color") [(lit "RED", 1)] 0); (3, ANil); (4, AStr []); (5, ABool false)].
Example C74_constructor_ex :
  NoDup (map (fun m => fst (fst (plain m))) s_ms) /\
  NoDup (map (fun m => member_name (snd (fst (plain m)))) s_ms) /\
  (exists dms, declare (map plain s_ms) = Some dms /\ s_structs (publicize (lit "s")) = Some (dms, ANil)) /\
  Forall (simple_default s_structs X0 round0) s_ms /\
  map fst s_zero = map (fun m => fst (fst (plain m))) s_ms /\
  match ctor_body X0 s_ms 0 with
  | Some (ss, _) => exec extp 1 round0 s_structs ss
      [[(output_name, (GtPtr (publicize (lit "s")), AStruct 0 (lit "s") (NewTFieldContainer 0 []) s_zero))]]
  | None => None
  end = Some [[(output_name, (GtPtr (publicize (lit "s")), AStruct 0 (lit "s") (NewTFieldContainer 0 [])
      [(1, AInt32 5); (2, mk_enum 7 (lit "color") [(lit "RED", 1)] (-2147483649)); (3, AList 0 STRING []);
       (4, AStr [120]); (5, ABool false)]))]].
Proof.
  split; [repeat constructor; cbn; intuition discriminate|].
  split; [vm_compute; repeat constructor; cbn; intuition discriminate|].
  split; [eexists; split; reflexivity|].
  split; [|split; [reflexivity|vm_compute; reflexivity]].
  unfold s_ms. apply Forall_cons; [split; [cbn; unfold in_s; lia|left; reflexivity]|].
  apply Forall_cons; [exact I|]. apply Forall_cons; [split; [exact I|right; left; reflexivity]|].
  apply Forall_cons; [split; [cbn; concrete|left; reflexivity]|].
  apply Forall_cons; [exact I|]. apply Forall_nil.
Qed.

(** *** The constructor is the one the reader and the writer are modelled with *)

(** A member here and the same member in [Gen]: key, name, kind of type, default. *)
Definition same_kind (t : cty) (u : ty) : Prop :=
  match true_type t, u with
  | KBool, TyBool | KByte, TyByte | KI16, TyI16 | KI32, TyI32 | KI64, TyI64 | KDouble, TyDouble
  | KString, TyString | KBinary, TyBinary | KList _, TyList _ | KSet _, TySet _ | KMap _ _, TyMap _ _
  | KStruct _ _, TyStruct _ _ => True
  | KEnum tag n cs, TyEnum tag' n' cs' => tag = tag' /\ n = n' /\ cs = cs'
  | _, _ => False
  end.
Definition same_member structs (m : Z * bytes * cty * option cval) (g : member) : Prop :=
  fst (fst (plain m)) = m_id g /\ snd (fst (plain m)) = m_name g /\ same_kind (snd (plain m)) (m_ty g) /\
  match snd m, m_def g with
  | None, None => True
  | Some c, Some v => direct (true_type (snd (plain m))) = true /\ denotes structs false (snd (plain m)) c v
  | _, _ => False
  end.

Lemma denotes_det : forall structs t c u v, direct (true_type t) = true ->
  denotes structs false t c u -> denotes structs false t c v -> u = v.
Proof.
  intros structs t c u v D Hu Hv. apply denotes_untype in Hu, Hv.
  destruct (true_type t); cbn in D; try discriminate; inversion Hu; subst; inversion Hv; subst; try reflexivity.
  destruct b, b0; congruence.
Qed.
Lemma same_attrs : forall l l' : list (Z * any), NoDup (map fst l) -> map fst l = map fst l' ->
  (forall id, In id (map fst l) -> attribute l id = attribute l' id) -> l = l'.
Proof.
  induction l as [|[i v] l IH]; intros [|[i' v'] l'] D F A; try discriminate; [reflexivity|].
  cbn in F. injection F as <- F. inversion D as [|? ? D1 D2]; subst.
  assert (v = v') as ->.
  { specialize (A i (or_introl eq_refl)). unfold attribute in A. cbn in A. rewrite Z.eqb_refl in A. exact A. }
  f_equal. apply IH; [exact D2|exact F|]. intros id Hid. specialize (A id (or_intror Hid)). unfold attribute in *. cbn in A.
  destruct (Z.eqb_spec id i) as [Q|Q]; [rewrite <- Q in D1; contradiction|]. exact A.
Qed.

Theorem C74_constructor_is_gnew_partial : forall x f round10 structs X sn ms gms n dms v0,
  cpp_ok X ->
  NoDup (map (fun m => fst (fst (plain m))) ms) ->
  NoDup (map (fun m => member_name (snd (fst (plain m)))) ms) ->
  declare (map plain ms) = Some dms -> structs (publicize sn) = Some (dms, v0) ->
  Forall (simple_default structs X round10) ms ->
  Forall2 (same_member structs) ms gms ->
  exists ss n', ctor_body X ms n = Some (ss, n') /\
    exec x (S f) round10 structs ss
      [[(output_name, (GtPtr (publicize sn), AStruct 0 sn (fc_of gms) (map (fun g => (m_id g, go_zero (m_ty g))) gms)))]] =
      Some [[(output_name, (GtPtr (publicize sn), gnew sn gms))]].
Proof.
  intros x f round10 structs X sn ms gms n dms v0 HX Di Dn Dc St Hs Hg.
  assert (Ids : map (fun m => fst (fst (plain m))) ms = map m_id gms).
  { clear - Hg. induction Hg as [|m g ms gms (H & _) _ IH]; cbn; [reflexivity|]. rewrite IH, H. reflexivity. }
  set (attrs := map (fun g => (m_id g, go_zero (m_ty g))) gms).
  assert (Ia : map fst attrs = map m_id gms) by (unfold attrs; rewrite map_map; reflexivity).
  destruct (C74_constructor_partial x f round10 structs X sn (fc_of gms) ms n dms v0 attrs HX Di Dn Dc St Hs) as
    (ss & n' & attrs' & Cb & Ex & A0 & A1); [congruence|].
  exists ss, n'. split; [exact Cb|]. rewrite Ex. unfold gnew. do 6 f_equal.
  rewrite Ids in Di.
  assert (Lk : forall (h : member -> any) gs g, NoDup (map m_id gs) -> In g gs ->
            attribute (map (fun g => (m_id g, h g)) gs) (m_id g) = h g).
  { clear. intros h gs. induction gs as [|g0 gs IH]; intros g D Hi; [destruct Hi|].
    destruct Hi as [->|Hi]; cbn in D; inversion D as [|? ? D1 D2]; subst; unfold attribute in *; cbn.
    - rewrite Z.eqb_refl. reflexivity.
    - assert (m_id g <> m_id g0) by (intros Q; apply D1; rewrite <- Q; apply in_map; exact Hi).
      destruct (Z.eqb_spec (m_id g) (m_id g0)); [congruence|].
      apply IH; assumption. }
  apply same_attrs.
  - rewrite A0, Ia. exact Di.
  - rewrite A0, Ia, map_map. reflexivity.
  - intros id Hid. rewrite A0, Ia in Hid.
    assert (P : exists m g, In m ms /\ In g gms /\ same_member structs m g /\ m_id g = id).
    { clear - Hg Hid. induction Hg as [|m g ms gms H _ IH]; cbn in Hid; [contradiction|].
      destruct Hid as [<-|Hid]; [exists m, g; cbn; auto|].
      destruct (IH Hid) as (m1 & g1 & H1 & H2 & H3 & H4). exists m1, g1. cbn. auto. }
    destruct P as (m & g & Hm & Hgi & (E1 & E2 & K & Df) & <-).
    specialize (A1 m Hm). rewrite E1 in A1. rewrite (Lk m_init gms g Di Hgi).
    unfold attrs in A1. rewrite (Lk (fun g => go_zero (m_ty g)) gms g Di Hgi) in A1.
    unfold initial in A1. unfold m_init. destruct m as [[[mi mn] mt] md]. cbn [snd fst plain] in *.
    destruct md as [c|]; destruct (m_def g) as [v|]; try contradiction.
    + destruct Df as [D Dv]. exact (denotes_det structs mt c _ _ D A1 Dv).
    + unfold same_kind in K. destruct (true_type mt), (m_ty g); try contradiction; try exact A1.
      destruct K as (-> & -> & ->). exact A1.
Qed.
Print Assumptions C74_constructor_is_gnew_partial.

Definition s_gms : list member :=
  [Mem 1 (lit "a") false (Some (AInt32 5)) TyI32; Mem 2 (lit "c") true None (TyEnum 7 (lit "color") [(lit "RED", 1)]);
   Mem 4 (lit "type") false (Some (AStr [120])) TyString; Mem 5 (lit "b") false None TyBool].
Example C74_constructor_is_gnew_ex :
  let ms := filter (fun m => negb (fst (fst (plain m)) =? 3)) s_ms in
  Forall2 (same_member s_structs) ms s_gms /\ length ms = 4%nat.
Proof. cbn. split; [|reflexivity]. repeat constructor; cbn; try (unfold in_s; lia). Qed.

(** *** Defaults that are containers or structs with contents *)

(** Statements that name [y] as what they act on. *)
Definition acts_on (y : bytes) (s : gstmt) : Prop :=
  match s with
  | SField z _ _ | SFieldVar z _ _ | SSet z _ _ | SPush z _ | SAddTo z _ => z = y
  | _ => False
  end.

Lemma gstmt_ind' : forall P : gstmt -> Prop,
  (forall y e, P (SDecl y e)) -> (forall y e, P (SAssign y e)) -> (forall y f e, P (SField y f e)) ->
  (forall y f v, P (SFieldVar y f v)) -> (forall y k v, P (SSet y k v)) -> (forall y v, P (SPush y v)) ->
  (forall y v, P (SAddTo y v)) -> (forall b, Forall P b -> P (SBlock b)) -> forall s, P s.
Proof.
  intros P H1 H2 H3 H4 H5 H6 H7 H8. fix IH 1. destruct s as [y e|y e|y f e|y f v|y k v|y v|y v|b].
  - apply H1. - apply H2. - apply H3. - apply H4. - apply H5. - apply H6. - apply H7.
  - apply H8. induction b as [|s b IHb]; constructor; [apply IH|exact IHb].
Qed.

Definition dom (E : list scope) : list (list bytes) := map (map fst) E.
Lemma supd_dom : forall s y v, map fst (supd s y v) = map fst s.
Proof.
  induction s as [|[z [g w]] s IH]; intros y v; cbn; [reflexivity|]. destruct (beq z y); cbn; [reflexivity|].
  rewrite IH. reflexivity.
Qed.
Lemma update_dom : forall E y v, dom (update E y v) = dom E.
Proof.
  induction E as [|s E IH]; intros y v; cbn; [reflexivity|]. destruct (sfind s y); cbn.
  - rewrite supd_dom. reflexivity.
  - unfold dom in IH. rewrite IH. reflexivity.
Qed.
Lemma sfind_dom : forall s y, sfind s y = None <-> ~ In y (map fst s).
Proof.
  induction s as [|[z b] s IH]; intros y; cbn; [tauto|]. destruct (beq z y) eqn:B.
  - apply beq_true in B as ->. split; [discriminate|]. intros H. destruct H. left. reflexivity.
  - rewrite IH. assert (z <> y) by (intros ->; rewrite beq_refl in B; discriminate). tauto.
Qed.
Lemma find_dom : forall E y, find E y = None <-> forall s, In s (dom E) -> ~ In y s.
Proof.
  induction E as [|s E IH]; intros y; cbn; [split; [intros _ s []|reflexivity]|].
  destruct (sfind s y) eqn:F.
  - split; [discriminate|]. intros H. apply (proj2 (sfind_dom s y)) in H; [congruence|left; reflexivity].
  - rewrite (IH y). apply sfind_dom in F. split.
    + intros H s' [<-|Hs]; [exact F|apply H; exact Hs].
    + intros H s' Hs. apply H. right. exact Hs.
Qed.

Section Unbound.
Variable x : ext.
Variable fuel : nat.
Variable round10 : Z -> Z -> Z.
Variable structs : bytes -> option (list (bytes * (Z * cty)) * any).
Notation exec := (exec x fuel round10 structs).
Notation exec1 := (exec1 x fuel round10 structs).

Lemma set_field_dom : forall E y f r E', set_field round10 structs E y f r = Some E' -> dom E' = dom E.
Proof.
  intros E y f r E' H. unfold set_field in H.
  destruct (find E y) as [[g w]|]; [|discriminate]. destruct w; try discriminate.
  destruct (under g); try discriminate. destruct (structs go) as [[ms v0]|]; [|discriminate].
  destruct (mfind ms f) as [[id t]|]; [|discriminate]. destruct (convert round10 (go_type t) r); [|discriminate].
  injection H as <-. apply update_dom.
Qed.

Lemma exec1_dom : forall s E E', exec1 s E = Some E' ->
  match s with
  | SDecl y _ => exists sc E0, dom E = sc :: E0 /\ dom E' = (y :: sc) :: E0
  | _ => dom E' = dom E
  end.
Proof.
  induction s as [y e|y e|y f e|y f v|y k v|y v|y v|b IH] using gstmt_ind'; intros E E' H.
  - cbn in H. destruct (eval structs e) as [r|]; [|discriminate].
    destruct (declared round10 r) as [b|]; [|discriminate]. destruct E as [|sc E]; [discriminate|].
    destruct (sfind sc y); [discriminate|]. injection H as <-. cbn. eauto.
  - cbn in H. destruct (eval structs e) as [r|]; [|discriminate]. destruct (find E y) as [[g w]|]; [|discriminate].
    destruct (convert round10 g r); [|discriminate]. injection H as <-. apply update_dom.
  - cbn in H. destruct (eval structs e) as [r|]; [|discriminate]. exact (set_field_dom _ _ _ _ _ H).
  - cbn in H. destruct (find E v) as [[g w]|]; [|discriminate]. exact (set_field_dom _ _ _ _ _ H).
  - cbn in H. destruct (find E y) as [[g w]|]; [|discriminate]. destruct w; try discriminate.
    destruct (find E k) as [[gk wk]|]; [|discriminate]. destruct (find E v) as [[gv wv]|]; [|discriminate].
    destruct (under g); try discriminate. unfold run_out in H. destruct (tm_Set _ _ _ _ _); try discriminate.
    injection H as <-. apply update_dom.
  - cbn in H. destruct (find E y) as [[g w]|]; [|discriminate]. destruct w; try discriminate.
    destruct (find E v) as [[gv wv]|]; [|discriminate].
    destruct (under g); try discriminate. unfold run_out in H. destruct (tl_Push _ _ _); try discriminate.
    injection H as <-. apply update_dom.
  - cbn in H. destruct (find E y) as [[g w]|]; [|discriminate]. destruct w; try discriminate.
    destruct (find E v) as [[gv wv]|]; [|discriminate].
    destruct (under g); try discriminate. unfold run_out in H. destruct (ts_Add _ _ _ _); try discriminate.
    injection H as <-. apply update_dom.
  - change (exec1 (SBlock b) E) with (match exec b ([] :: E) with Some E' => Some (tl E') | None => None end) in H.
    destruct (exec b ([] :: E)) as [E1|] eqn:Ex; [|discriminate]. injection H as <-.
    assert (G : forall b E0 E1 sc, Forall (fun s => forall E E', exec1 s E = Some E' ->
                  match s with
                  | SDecl y _ => exists sc E0, dom E = sc :: E0 /\ dom E' = (y :: sc) :: E0
                  | _ => dom E' = dom E
                  end) b -> dom E0 = sc :: dom E -> exec b E0 = Some E1 -> exists sc', dom E1 = sc' :: dom E).
    { clear. induction b as [|s b IHb]; intros E0 E1 sc IH D Ex; cbn in Ex.
      - injection Ex as <-. eauto.
      - inversion IH as [|? ? Hs Hb]; subst. destruct (exec1 s E0) as [E2|] eqn:X1; [|discriminate].
        specialize (Hs _ _ X1).
        assert (exists sc2, dom E2 = sc2 :: dom E) as [sc2 D2].
        { destruct s; try (exists sc; congruence). destruct Hs as (a & E3 & P & Q). rewrite D in P.
          injection P as <- <-. eauto. }
        exact (IHb _ _ _ Hb D2 Ex). }
    destruct (G b ([] :: E) E1 [] IH eq_refl Ex) as [sc' D]. destruct E1 as [|s1 E1]; [discriminate|].
    cbn in D. injection D as _ D. cbn. exact D.
Qed.

Lemma exec1_unbound : forall s E y, acts_on y s -> find E y = None -> exec1 s E = None.
Proof.
  intros s E y A F. destruct s; cbn in A; try contradiction; subst; cbn; unfold set_field; rewrite ?F; try reflexivity.
  - destruct (eval structs e); reflexivity.
  - destruct (find E v) as [[g w]|]; reflexivity.
Qed.

Lemma exec_unbound : forall ss E y, (exists s, In s ss /\ acts_on y s) -> (forall e, ~ In (SDecl y e) ss) ->
  find E y = None -> exec ss E = None.
Proof.
  induction ss as [|s ss IH]; intros E y (s0 & Hi & A) Nd F; [destruct Hi|]. cbn.
  destruct (exec1 s E) as [E1|] eqn:X1; [|reflexivity].
  destruct Hi as [->|Hi]; [rewrite (exec1_unbound _ _ _ A F) in X1; discriminate|].
  apply (IH E1 y); [eauto|intros e He; apply (Nd e); right; exact He|].
  apply exec1_dom in X1. apply find_dom.
  assert (F' := proj1 (find_dom E y) F).
  destruct s as [z e| | | | | | |]; try (rewrite X1; exact F').
  destruct X1 as (sc & E0 & D & ->). rewrite D in F'. intros s [<-|Hs].
  - intros [->|Hy]; [apply (Nd e); left; reflexivity|]. apply (F' sc); [left; reflexivity|exact Hy].
  - apply F'. right. exact Hs.
Qed.

Lemma exec_out : forall ss E y E', (forall e, ~ In (SDecl y e) ss) -> find E y = None -> exec ss E = Some E' -> find E' y = None.
Proof.
  induction ss as [|s ss IH]; intros E y E' Nd F Ex; cbn in Ex; [injection Ex as <-; exact F|].
  destruct (exec1 s E) as [E1|] eqn:X1; [|discriminate].
  apply (IH E1 y E'); [intros e He; apply (Nd e); right; exact He| |exact Ex].
  apply exec1_dom in X1. apply find_dom. assert (F' := proj1 (find_dom E y) F).
  destruct s as [z e| | | | | | |]; try (rewrite X1; exact F').
  destruct X1 as (sc & E0 & D & ->). rewrite D in F'. intros s [<-|Hs].
  - intros [->|Hy]; [apply (Nd e); left; reflexivity|]. apply (F' sc); [left; reflexivity|exact Hy].
  - apply F'. right. exact Hs.
Qed.
End Unbound.

(** The block rendered after a container or struct declares names of tmp() only, and acts on the
    object by the name given. *)
Definition tmp_decls X (ss : list gstmt) : Prop := forall y e, In (SDecl y e) ss -> exists c m, y = cx_tmp X c m.
Lemma tmp_app : forall X a b, tmp_decls X a -> tmp_decls X b -> tmp_decls X (a ++ b).
Proof. intros X a b Ha Hb y e H. apply in_app_or in H as [H|H]; eauto. Qed.
Lemma tmp_cons : forall X s b, match s with SDecl _ _ => False | _ => True end -> tmp_decls X b -> tmp_decls X (s :: b).
Proof. intros X s b Hs Hb y e [->|H]; [contradiction|eauto]. Qed.
Lemma tmp_with : forall X c m e b, tmp_decls X (with_block (SDecl (cx_tmp X c m) e) b).
Proof.
  intros X c m e b y e' [H|H]; [injection H as <- _; eauto|]. destruct b; [|destruct H].
  destruct H as [H|[]]. discriminate.
Qed.

Lemma rlist_shape : forall X op et name, (forall a b, acts_on a (op a b)) -> forall l n ss n', rlist X op et name l n = Some (ss, n') ->
  tmp_decls X ss /\ (l = [] \/ exists s, In s ss /\ acts_on name s).
Proof.
  intros X op et name Hop. induction l as [|c l IH]; intros n ss n' H.
  - cbn in H. injection H as <- _. split; [intros y e []|auto].
  - rewrite rlist_cons in H. destruct (render X c et (tmp_v X n) (S n)) as [[[e b] n1]|]; [|discriminate].
    destruct (rlist X op et name l n1) as [[ss1 n2]|] eqn:R; [|discriminate].
    apply some_pair in H as [<- _]. destruct (IH _ _ _ R) as [T _]. split.
    + apply tmp_app; [apply tmp_with|]. apply tmp_cons; [|exact T]. specialize (Hop name (tmp_v X n)).
      destruct (op name (tmp_v X n)); cbn in Hop; auto.
    + right. exists (op name (tmp_v X n)). split; [|apply Hop]. apply in_or_app. right. left. reflexivity.
Qed.
Lemma rmap_shape : forall X kt vt name l n ss n', rmap X kt vt name l n = Some (ss, n') ->
  tmp_decls X ss /\ (l = [] \/ exists s, In s ss /\ acts_on name s).
Proof.
  intros X kt vt name. induction l as [|[ck cv] l IH]; intros n ss n' H.
  - cbn in H. injection H as <- _. split; [intros y e []|auto].
  - rewrite rmap_cons in H. destruct (render X ck kt (tmp_k X n) (S (S n))) as [[[ek bk] n1]|]; [|discriminate].
    destruct (render X cv vt (tmp_v X (S n)) n1) as [[[ev bv] n2]|]; [|discriminate].
    destruct (rmap X kt vt name l n2) as [[ss1 n3]|] eqn:R; [|discriminate].
    apply some_pair in H as [<- _]. destruct (IH _ _ _ R) as [T _]. split.
    + apply tmp_app; [apply tmp_with|]. apply tmp_app; [apply tmp_with|]. apply tmp_cons; [exact I|exact T].
    + right. exists (SSet name (tmp_k X n) (tmp_v X (S n))). split; [|reflexivity].
      apply in_or_app. right. apply in_or_app. right. left. reflexivity.
Qed.
Lemma rstruct_shape : forall X ms name l n ss n', rstruct X ms name l n = Some (ss, n') ->
  tmp_decls X ss /\ (l = [] \/ exists s, In s ss /\ acts_on name s).
Proof.
  intros X ms name. induction l as [|[ck cv] l IH]; intros n ss n' H.
  - cbn in H. injection H as <- _. split; [intros y e []|auto].
  - destruct ck as [z|z|fn|z|z]; try discriminate.
    rewrite rstruct_cons in H. destruct (field_type ms fn) as [ft|]; [|discriminate]. destruct (direct ft).
    + destruct (render X cv ft name n) as [[[e b] n1]|]; [|discriminate].
      destruct (rstruct X ms name l n1) as [[ss1 n2]|] eqn:R; [|discriminate].
      apply some_pair in H as [<- _]. destruct (IH _ _ _ R) as [T _]. split.
      * apply tmp_cons; [exact I|exact T].
      * right. exists (SField name (publicize fn) e). split; [left|]; reflexivity.
    + destruct (render X cv ft (tmp_v X (S n)) (S (S n))) as [[[e b] n1]|]; [|discriminate].
      destruct (rstruct X ms name l n1) as [[ss1 n2]|] eqn:R; [|discriminate].
      apply some_pair in H as [<- _]. destruct (IH _ _ _ R) as [T _]. split.
      * apply tmp_app; [apply tmp_with|]. apply tmp_cons; [exact I|exact T].
      * right. exists (SFieldVar name (publicize fn) (tmp_v X (S n))). split; [|reflexivity].
        apply in_or_app. right. left. reflexivity.
Qed.

(** A constant with contents. *)
Definition filled (c : cval) : Prop :=
  match c with CList (_ :: _) | CMap (_ :: _) => True | _ => False end.

Lemma filled_block : forall X c t name n e b n', filled c -> render X c t name n = Some (e, b, n') ->
  exists ss, b = Some ss /\ tmp_decls X ss /\ exists s, In s ss /\ acts_on name s.
Proof.
  intros X c t name n e b n' Fc R.
  destruct c as [| | |l|l]; try contradiction; cbn [render] in R;
    destruct (true_type t) as [| | | | | | | | |et|et|kt vt|sn ms|]; try discriminate.
  - change ((match rlist X SPush et name l n with
       | Some (ss, n') => Some (GNewList (enum_of et) (Z.of_nat (length l)), Some ss, n') | None => None end) = Some (e, b, n')) in R.
    destruct (rlist X SPush et name l n) as [[ss n1]|] eqn:Rl; [|discriminate].
    apply some_pair in R as [R _]. injection R as <- <-.
    destruct (rlist_shape X SPush et name (fun a b => eq_refl) l n ss n1 Rl) as [T [->|H]]; [contradiction|]. eauto.
  - change ((match rlist X SAddTo et name l n with
       | Some (ss, n') => Some (GNewSet (enum_of et) (Z.of_nat (length l)), Some ss, n') | None => None end) = Some (e, b, n')) in R.
    destruct (rlist X SAddTo et name l n) as [[ss n1]|] eqn:Rl; [|discriminate].
    apply some_pair in R as [R _]. injection R as <- <-.
    destruct (rlist_shape X SAddTo et name (fun a b => eq_refl) l n ss n1 Rl) as [T [->|H]]; [contradiction|]. eauto.
  - change ((match rmap X kt vt name l n with
       | Some (ss, n') => Some (GNewMap (enum_of kt) (enum_of vt) (Z.of_nat (length l)), Some ss, n') | None => None end) = Some (e, b, n')) in R.
    destruct (rmap X kt vt name l n) as [[ss n1]|] eqn:Rl; [|discriminate].
    apply some_pair in R as [R _]. injection R as <- <-.
    destruct (rmap_shape X kt vt name l n ss n1 Rl) as [T [->|H]]; [contradiction|]. eauto.
  - change ((match rstruct X ms name l n with
       | Some (ss, n') => Some (GNewStruct (publicize sn), Some ss, n') | None => None end) = Some (e, b, n')) in R.
    destruct (rstruct X ms name l n) as [[ss n1]|] eqn:Rl; [|discriminate].
    apply some_pair in R as [R _]. injection R as <- <-.
    destruct (rstruct_shape X ms name l n ss n1 Rl) as [T [->|H]]; [contradiction|]. eauto.
Qed.

(** A default with contents is filled in under the IDL name of the member, which nothing
    declares: whatever else the struct has, the constructor does not compile. *)
Theorem C74_filled_default_does_not_compile : forall x fuel round10 structs X ms n ss n' g v id name t c,
  ctor_body X ms n = Some (ss, n') ->
  In (id, name, t, Some c) ms -> filled c ->
  name <> output_name -> (forall ch m, name <> cx_tmp X ch m) ->
  exec x fuel round10 structs ss [[(output_name, (g, v))]] = None.
Proof.
  intros x fuel round10 structs X ms n ss n' g v id name t c Cb Hm Fc No Nt.
  assert (G : forall ms n ss n' E, ctor_body X ms n = Some (ss, n') -> In (id, name, t, Some c) ms ->
    find E name = None -> exec x fuel round10 structs ss E = None).
  { clear - Fc No Nt. induction ms as [|[[[id0 name0] t0] d] ms IH]; intros n ss n' E H Hi F; [destruct Hi|].
    cbn [ctor_body] in H. destruct Hi as [Hi|Hi].
    - injection Hi as -> -> -> ->.
      destruct (render X c (true_type t) name n) as [[[e1 b] n1]|] eqn:R; [|discriminate].
      destruct (ctor_body X ms n1) as [[ss1 n2]|] eqn:R1; [|discriminate]. apply some_pair in H as [<- _].
      destruct (filled_block X c (true_type t) name n e1 b n1 Fc R) as (ss2 & -> & T & A).
      cbn [with_block app]. cbn [exec].
      destruct (exec1 x fuel round10 structs (SField output_name (member_name name) e1) E) as [E1|] eqn:X1; [|reflexivity].
      cbn [exec]. change (exec1 x fuel round10 structs (SBlock ss2) E1) with
        (match exec x fuel round10 structs ss2 ([] :: E1) with Some E' => Some (tl E') | None => None end).
      rewrite (exec_unbound x fuel round10 structs ss2 ([] :: E1) name A); [reflexivity| |].
      + intros e He. destruct (T _ _ He) as (ch & m & Q). exact (Nt ch m Q).
      + cbn. apply exec1_dom in X1. apply find_dom. rewrite X1. apply find_dom. exact F.
    - assert (Step : forall a n1 ss1 n2, ctor_body X ms n1 = Some (ss1, n2) -> (forall y e, ~ In (SDecl y e) a) ->
        exec x fuel round10 structs (a ++ ss1) E = None).
      { intros a n1 ss1 n2 Hc Nd.
        assert (Ea : exec x fuel round10 structs (a ++ ss1) E =
          match exec x fuel round10 structs a E with Some E' => exec x fuel round10 structs ss1 E' | None => None end).
        { clear. revert E. induction a as [|s a IHa]; intros E; cbn; [reflexivity|].
          destruct (exec1 x fuel round10 structs s E); auto. }
        rewrite Ea. destruct (exec x fuel round10 structs a E) as [E1|] eqn:Xa; [|reflexivity].
        apply (IH n1 ss1 n2 E1 Hc Hi). exact (exec_out x fuel round10 structs a E name E1 (Nd name) F Xa). }
      destruct d as [c0|].
      + destruct (render X c0 (true_type t0) name0 n) as [[[e1 b] n1]|]; [|discriminate].
        destruct (ctor_body X ms n1) as [[ss1 n2]|] eqn:R1; [|discriminate]. apply some_pair in H as [<- _].
        apply (Step _ n1 ss1 n2 R1). intros y e [Hd|Hd]; [discriminate|].
        destruct b; [destruct Hd as [Hd|[]]; discriminate|destruct Hd].
      + destruct (ctor_body X ms n) as [[ss1 n2]|] eqn:R1; [|discriminate]. apply some_pair in H as [<- _].
        destruct (true_type t0) eqn:T0; try exact (IH n ss1 n2 E R1 Hi F).
        apply (Step [_] n ss1 n2 R1). intros y e [Hd|[]]. discriminate. }
  apply (G ms n ss n' _ Cb Hm). cbn. rewrite beq_neq; [reflexivity|congruence].
Qed.
Print Assumptions C74_filled_default_does_not_compile.

(** struct p { 1: string a; 2: list<i32> l = [1] } *)
Definition p_ms : list (Z * bytes * cty * option cval) :=
  [(1, lit "a", KString, None); (2, lit "l", KList KI32, Some (CList [CInt 1]))].
Example C74_filled_default_ex : exists ss n', ctor_body X0 p_ms 0 = Some (ss, n') /\
  In (2, lit "l", KList KI32, Some (CList [CInt 1])) p_ms /\ filled (CList [CInt 1]) /\ lit "l" <> output_name /\
  (forall ch m, lit "l" <> cx_tmp X0 ch m).
Proof.
  do 2 eexists. split; [vm_compute; reflexivity|]. split; [right; left; reflexivity|]. split; [exact I|].
  split; [discriminate|]. intros ch m H.
  change ([108] = ch :: decimals m (Z.of_nat m)) in H. injection H as _ H.
  apply (f_equal (@length Z)) in H. destruct m as [|m]; cbn in H; [discriminate|].
  destruct (Z.pos (Pos.of_succ_nat m) <? 10); cbn in H; [discriminate|]. rewrite app_length in H. cbn in H. lia.
Qed.

(** So a struct with such a default has no constructor, although the default has a meaning. *)
Theorem C74_container_default_refuted : exists ms c v, In (2, lit "l", KList KI32, Some c) ms /\
  denotes shapes false (KList KI32) c v /\
  forall x f round10 structs n g w ss n', ctor_body X0 ms n = Some (ss, n') ->
    exec x f round10 structs ss [[(output_name, (g, w))]] = None.
Proof.
  exists p_ms, (CList [CInt 1]), (AList 0 I32 [AInt32 1]). split; [right; left; reflexivity|].
  split; [apply d_list; repeat constructor; unfold in_s; lia|].
  intros x f round10 structs n g w ss n' H. destruct C74_filled_default_ex as (_ & _ & _ & H1 & H2 & H3 & H4).
  exact (C74_filled_default_does_not_compile x f round10 structs X0 p_ms n ss n' g w _ _ _ _ H H1 H2 H3 H4).
Qed.
Print Assumptions C74_container_default_refuted.

(** struct q { -1: i32 a = 5 }, which the compiler accepts (and makes of a member without a key):
    the members are declared with wire types in place of Go types. *)
Theorem C74_negative_key_refuted : exists m c, plain m = (-1, lit "a", KI32) /\ snd m = Some c /\
  denotes shapes false KI32 c (AInt32 5) /\ declare [plain m] = None.
Proof.
  exists (-1, lit "a", KI32, Some (CInt 5)), (CInt 5). split; [reflexivity|]. split; [reflexivity|].
  split; [constructor; unfold in_s; lia|reflexivity].
Qed.
Print Assumptions C74_negative_key_refuted.

(** The struct of a constant or default is declared exactly if no key is negative; then each of its members, under its Go
    name, with its key and type. *)
Theorem C74_declared : forall ms,
  (declare ms = None <-> exists k n t, In (k, n, t) ms /\ k < 0) /\
  forall dms, declare ms = Some dms ->
    Forall2 (fun m d => let '(k, n, t) := m in d = (member_name n, (k, t))) ms dms.
Proof.
  intro ms. unfold declare. destruct (forallb _ ms) eqn:F.
  - split.
    + split; [discriminate|]. intros (k & n & t & H & L). rewrite forallb_forall in F. specialize (F _ H). cbn in F. lia.
    + intros dms E. injection E as <-. clear F. induction ms as [|[[k n] t] ms IH]; constructor; [reflexivity|exact IH].
  - split; [|discriminate]. split; [intros _|reflexivity].
    induction ms as [|[[k n] t] ms IH]; [discriminate|]. cbn [forallb fst] in F. destruct (Z.leb_spec 0 k) as [L|L].
    + cbn in F. destruct (IH F) as (k' & n' & t' & H & L'). exists k', n', t'. split; [right; exact H|exact L'].
    + exists k, n, t. split; [left; reflexivity|lia].
Qed.
Print Assumptions C74_declared.
Example C74_declared_ex : exists dms, declare [(0, lit "a", KI32); (7, lit "b_c", KString)] = Some dms.
Proof. eexists. reflexivity. Qed.
