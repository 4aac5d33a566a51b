(** Properties of the tutorial's server: C102. *)
From Coq Require Import ZArith List Bool Lia Permutation String.
From Coq Require Import ZifyBool ZifyNat Zquot.
From Verif Require Import Base Errors Transport Proto Skip Arith Values Codec SkipProofs BinaryProofs BinarySpec Binary BinaryMsg
  TransportProofs Compact CompactSpec CompactProofs CompactRead CompactStruct WfDec.
From Verif Require Import Strconv TField GoVal Compare TMap Gen GenSpec GenProofs GenInst GenRound PropGen.
From Verif Require Import AppExc AppExcProofs PropRpc Names Rpc RpcProofs PropService RpcInv Tutorial.
Import ListNotations.
Open Scope list_scope.
Open Scope Z_scope.
Local Notation length := List.length.

(** ** C102 *)

(** What clients ask for, and what they should get. *)
Inductive request : Type :=
| QPing
| QAdd (a b : Z)
| QCalculate (logid op a b : Z)
| QGet (key : Z).
Inductive answer : Type :=
| Done
| Number (z : Z)
| Refused (what : Z) (why : string)
| Entry (key : Z) (value : Z)
| Nothing.
(** The int32 a Go program computes for the number [v]. *)
Definition int32_of (v z : Z) : Prop := in_s 32 z /\ exists k, z = v + k * 2 ^ 32.
(** The exact result of an operation; division drops the fraction. *)
Inductive value : Z -> Z -> Z -> Z -> Prop :=
| va_add a b : value 1 a b (a + b)
| va_sub a b : value 2 a b (a - b)
| va_mul a b : value 3 a b (a * b)
| va_div a b q r : b <> 0 -> a = b * q + r -> Z.abs r < Z.abs b -> 0 <= r * a -> value 4 a b q.
(** A history lists what was calculated under which id, newest first. *)
Inductive latest : list (Z * Z) -> Z -> Z -> Prop :=
| la_here k v h : latest ((k, v) :: h) k v
| la_there k v k' v' h : k' <> k -> latest h k v -> latest ((k', v') :: h) k v.
Inductive answers : list (Z * Z) -> request -> answer -> list (Z * Z) -> Prop :=
| an_ping h : answers h QPing Done h
| an_add h a b z : int32_of (a + b) z -> answers h (QAdd a b) (Number z) h
| an_value h id op a b v z : value op a b v -> int32_of v z ->
    answers h (QCalculate id op a b) (Number z) ((id, z) :: h)
| an_zero h id a : answers h (QCalculate id 4 a 0) (Refused 4 "Cannot divide by 0") h
| an_operation h id op a b w : ~ 1 <= op <= 4 -> int32_of op w ->
    answers h (QCalculate id op a b) (Refused w "Unknown operation") h
| an_entry h k v : latest h k v -> answers h (QGet k) (Entry k v) h
| an_nothing h k : (forall v, ~ In (k, v) h) -> answers h (QGet k) Nothing h.
Inductive dialogue : list (Z * Z) -> list request -> list answer -> list (Z * Z) -> Prop :=
| di_nil h : dialogue h [] [] h
| di_cons h q a h1 qs l h2 : answers h q a h1 -> dialogue h1 qs l h2 -> dialogue h (q :: qs) (a :: l) h2.

(** The calls of the generated client that make a request.  An operation that was never set has the value
    the generator gives it. *)
Inductive asks : request -> func * list any -> Prop :=
| as_ping : asks QPing (f_ping, [])
| as_add a b : in_s 32 a -> in_s 32 b -> asks (QAdd a b) (f_add, [AInt32 a; AInt32 b])
| as_calculate id op a b addr fc comment : in_s 32 id -> in_s 32 op \/ op = enum_unset -> in_s 32 a -> in_s 32 b ->
    is_bytes comment -> Z.of_nat (length comment) < 2 ^ 31 ->
    asks (QCalculate id op a b)
      (f_calculate, [AInt32 id; AStruct addr work_name fc [(1, AInt32 a); (2, AInt32 b); (3, mk_op op); (4, AStr comment)]])
| as_get k : in_s 32 k -> asks (QGet k) (f_getStruct, [AInt32 k]).
(** What the caller sees: the value, the exception, the error. *)
Definition shows (a : answer) (r : cres) : Prop :=
  snd r = None /\
  match a with
  | Done => fst r = []
  | Number z => attribute (fst r) 0 = AInt32 z /\ attribute (fst r) 1 = ANil
  | Refused what why => exists ad fc,
      attribute (fst r) 1 = AStruct ad invalid_name fc [(1, AInt32 what); (2, AStr (lit why))]
  | Entry k v => exists ad fc t,
      attribute (fst r) 0 = AStruct ad shared_name fc [(1, AInt32 k); (2, AStr t)] /\ decimal t v
  | Nothing => attribute (fst r) 0 = ANil
  end.
(** A log that holds what a history says. *)
Definition logged (p : tlog) (h : list (Z * Z)) : Prop :=
  (forall k v, latest h k v -> in_s 32 k /\ in_s 32 v /\
     exists ad fc t, log_get p k = AStruct ad shared_name fc [(1, AInt32 k); (2, AStr t)] /\ decimal t v) /\
  (forall k, (forall v, ~ In (k, v) h) -> log_get p k = ANil).

(** *** The handler *)

Lemma int32_wraps : forall v, int32_of v (wraps 32 v).
Proof.
  intros v. split; [apply wraps_range; lia|]. unfold wraps, wrapu. change (2 ^ 32) with 4294967296.
  cbv zeta. match goal with |- context [if ?c then _ else _] => destruct c end;
    pose proof (Z.div_mod v 4294967296 ltac:(lia)); [exists (- (v / 4294967296))|exists (- (v / 4294967296) - 1)]; lia.
Qed.
Lemma op_value : forall z, mk_op z = AEnum 1 z (enum_String op_name op_consts z).
Proof. reflexivity. Qed.

(** Entries as handlers return them. *)
Definition entry_fits (v : any) : bool :=
  match v with
  | AStruct _ n _ [(i, AInt32 k); (j, AStr t)] =>
    (i =? 1) && (j =? 2) && str_eq n shared_name && (wraps 32 k =? k) && forallb (fun c => (0 <=? c) && (c <? 256)) t &&
    (Z.of_nat (length t) <? 2 ^ 31)
  | _ => false
  end.
Definition fits (p : tlog) : bool := forallb (fun e => entry_fits (snd e)) p.
Definition safe_handle (p : tlog) (name : bytes) (vals : list any) :=
  if fits p then tut_handle p name vals else (([], Some s_panic), p).

Lemma format_bytes : forall z, is_bytes (FormatInt z) /\ (length (FormatInt z) <= 21)%nat.
Proof.
  assert (G : forall f n acc, is_bytes acc -> is_bytes (dec_digits f n acc)).
  { induction f as [|f IH]; intros n acc Ha; cbn [dec_digits]; [exact Ha|].
    assert (is_bytes ((48 + n mod 10) :: acc)) as B by (constructor; [pose proof (Z.mod_pos_bound n 10); unfold is_byte; lia|exact Ha]).
    destruct (_ =? 0); [exact B|apply IH, B]. }
  assert (L : forall f n acc, (length (dec_digits f n acc) <= f + length acc)%nat).
  { induction f as [|f IH]; intros n acc; cbn [dec_digits]; [lia|].
    destruct (_ =? 0); [cbn; lia|]. specialize (IH (n / 10) ((48 + n mod 10) :: acc)). cbn [List.length] in IH. lia. }
  intros z. unfold FormatInt, format_uint. pose proof (L 20%nat (- z) []). pose proof (L 20%nat z []). cbn [List.length] in *.
  destruct (z <? 0); (split; [|cbn [List.length]; lia]); [constructor; [unfold is_byte; lia|]|]; apply G; constructor.
Qed.
Lemma bytes_check : forall t, forallb (fun c => (0 <=? c) && (c <? 256)) t = true -> is_bytes t.
Proof.
  induction t as [|c t IH]; intros H; [constructor|]. cbn [forallb] in H. apply andb_true_iff in H. destruct H as [A B].
  constructor; [unfold is_byte; lia|apply IH, B].
Qed.
Lemma check_bytes : forall t, is_bytes t -> forallb (fun c => (0 <=? c) && (c <? 256)) t = true.
Proof.
  induction t as [|c t IH]; intros H; [reflexivity|]. inversion H as [|? ? A B]; subst. cbn [forallb]. rewrite IH by exact B.
  unfold is_byte in A. lia.
Qed.
Lemma entry_shape : forall v, entry_fits v = true -> exists ad fc k t,
  v = AStruct ad shared_name fc [(1, AInt32 k); (2, AStr t)] /\ in_s 32 k /\ is_bytes t /\ Z.of_nat (length t) < 2 ^ 31.
Proof.
  intros v H. destruct v as [| | | | | | | | | | | | | | | | | | | | | | |ad n fc attrs|]; try discriminate.
  cbn [entry_fits] in H.
  destruct attrs as [|[i e1] [|[j e2] [|]]]; try discriminate; destruct e1; try discriminate; destruct e2; try discriminate.
  apply andb_true_iff in H. destruct H as [H L]. apply andb_true_iff in H. destruct H as [H B].
  apply andb_true_iff in H. destruct H as [H K]. apply andb_true_iff in H. destruct H as [H N]. apply str_eq_iff in N. subst n.
  assert (i = 1 /\ j = 2) as [-> ->] by lia.
  eexists _, _, _, _. split; [reflexivity|]. split; [|split; [apply bytes_check, B|lia]].
  apply Z.eqb_eq in K. rewrite <- K. apply wraps_range. lia.
Qed.

Ltac wires := repeat match goal with
  | H : wireof _ _ _ _ |- _ => inversion H; clear H; subst
  | H : wireoff _ _ _ _ |- _ => inversion H; clear H; subst
  end.
Lemma entry_kept : forall x v, entry_fits v = true -> kept x (TyStruct shared_name shared_ms) v.
Proof.
  intros x v H. destruct (entry_shape v H) as (ad & fc & k & t & -> & K & B & L).
  apply k_struct; [reflexivity| |]; intros m [<-|[<-|[]]]; cbn; try discriminate; intros _; constructor; assumption.
Qed.
Lemma entry_wire : forall x v w, entry_fits v = true -> wireof x (TyStruct shared_name shared_ms) v w ->
  (need w <= 4)%nat /\ cokv (VStruct [(0, w)]) /\ cokv (VStruct [(1, w)]).
Proof.
  intros x v w H Ww. destruct (entry_shape v H) as (ad & fc & k & t & -> & _).
  inversion Ww as [| | | | | | | | | | | |? ? ? ? ? ? F]; subst. cbn in F.
  inversion F; subst; [discriminate|]. clear F. cbn in *.
  match goal with F : wireoff _ _ _ _ |- _ => inversion F; subst; [discriminate|]; clear F end. cbn in *.
  match goal with F : wireoff _ _ [] _ |- _ => inversion F; subst; clear F end.
  wires. split; [cbn; lia|]. split; split; reflexivity.
Qed.
Lemma invalid_kept : forall x what why, in_s 32 what -> why = s_divide \/ why = s_operation ->
  kept x (TyStruct invalid_name invalid_ms) (mk_invalid what why).
Proof.
  intros x what why H Hw. apply k_struct; [reflexivity| |]; intros m [<-|[<-|[]]] G; try discriminate.
  - apply k_i32, H.
  - apply k_string; destruct Hw as [-> | ->]; (vm_compute; reflexivity) || concrete.
Qed.
Lemma invalid_wire : forall x what why w, wireof x (TyStruct invalid_name invalid_ms) (mk_invalid what why) w ->
  (need w <= 4)%nat /\ cokv (VStruct [(0, w)]) /\ cokv (VStruct [(1, w)]).
Proof.
  intros x what why w Ww.
  inversion Ww as [| | | | | | | | | | | |? ? ? ? ? ? F]; subst. cbn in F.
  inversion F; subst; [discriminate|]. clear F. cbn in *.
  match goal with F : wireoff _ _ _ _ |- _ => inversion F; subst; [discriminate|]; clear F end. cbn in *.
  match goal with F : wireoff _ _ [] _ |- _ => inversion F; subst; clear F end.
  wires. split; [cbn; lia|]. split; split; reflexivity.
Qed.
Lemma calculate_cases : forall p id w val ouch p', h_Calculate p id w = Ok (val, ouch, p') ->
  in_s 32 val /\
  ((ouch = ANil /\ p' = log_put p id (mk_shared id (FormatInt val))) \/
   (val = 0 /\ p' = p /\ exists what why, ouch = mk_invalid what why /\ in_s 32 what /\ (why = s_divide \/ why = s_operation))).
Proof.
  intros p id w val ouch p' H. unfold h_Calculate in H.
  destruct w as [| | | | | | | | | | | | | | | | | | | | | | |ad n fc attrs|]; try discriminate.
  destruct (attribute attrs 3) as [| | | | | | | | | | | | | | | | |e op str| | | | | | |]; try discriminate.
  destruct (attribute attrs 1) as [| | | | | |num1| | | | | | | | | | | | | | | | | |]; try discriminate.
  destruct (attribute attrs 2) as [| | | | | |num2| | | | | | | | | | | | | | | | | |]; try discriminate.
  assert (W : forall z, in_s 32 (wraps 32 z)) by (intro z; apply wraps_range; lia).
  assert (Z0 : in_s 32 0) by (unfold in_s; cbn; lia).
  destruct (op =? ADD); [injection H as <- <- <-; split; [apply W|left; auto]|].
  destruct (op =? SUBTRACT); [injection H as <- <- <-; split; [apply W|left; auto]|].
  destruct (op =? MULTIPLY); [injection H as <- <- <-; split; [apply W|left; auto]|].
  destruct (op =? DIVIDE); [destruct (num2 =? 0)|]; injection H as <- <- <-.
  - split; [exact Z0|]. right. split; [reflexivity|]. split; [reflexivity|]. eexists _, _. split; [reflexivity|]. auto.
  - split; [apply W|left; auto].
  - split; [exact Z0|]. right. split; [reflexivity|]. split; [reflexivity|]. eexists _, _. split; [reflexivity|]. auto.
Qed.
Lemma put_fits : forall p id t, fits p = true -> in_s 32 id -> is_bytes t -> (length t <= 21)%nat ->
  fits (log_put p id (mk_shared id t)) = true.
Proof.
  intros p id t F K B L. unfold fits, log_put. cbn [forallb snd]. apply andb_true_iff. split.
  - unfold mk_shared. cbn [entry_fits Z.eqb Pos.eqb andb]. rewrite str_eq_refl, wraps_id, Z.eqb_refl, (check_bytes t B) by (lia || assumption).
    cbn [andb]. lia.
  - apply forallb_forall. intros e He. apply filter_In in He. destruct He as [He _].
    unfold fits in F. rewrite forallb_forall in F. apply F, He.
Qed.
Lemma get_fits : forall p k, fits p = true -> log_get p k = ANil \/ entry_fits (log_get p k) = true.
Proof.
  intros p k F. unfold log_get. destruct (find _ p) as [e|] eqn:E; [|left; reflexivity].
  right. apply find_some in E. unfold fits in F. rewrite forallb_forall in F. apply F, E.
Qed.
Lemma wraps_in : forall z, wraps 32 z =? z = true -> in_s 32 z.
Proof. intros z H. apply Z.eqb_eq in H. rewrite <- H. apply wraps_range. lia. Qed.
Lemma safe_keeps : forall p name vals, fits p = true -> fits (snd (tut_handle p name vals)) = true.
Proof.
  intros p name vals F. unfold tut_handle.
  destruct (str_eq name (lit "getStruct")); [destruct vals as [|[] []]; exact F|].
  destruct (str_eq name (lit "add")); [destruct vals as [|[] [|[] []]]; exact F|].
  destruct (str_eq name (lit "calculate")); [|exact F].
  destruct vals as [|[| | | | | |id| | | | | | | | | | | | | | | | | |] [|w []]]; try exact F.
  destruct (wraps 32 id =? id) eqn:K; [|exact F]. apply wraps_in in K.
  destruct (h_Calculate p id w) as [[[val ouch] p']| |] eqn:E; try exact F.
  apply calculate_cases in E. destruct E as [_ [[_ ->]|(_ & -> & _)]]; [|exact F].
  cbn [snd]. destruct (format_bytes val). apply put_fits; assumption.
Qed.
Lemma safe_results : forall x f p vals attrs p', In f calculator -> safe_handle p (fn_name f) vals = ((attrs, None), p') ->
  (forall m, chosen f attrs m -> kept x (m_ty m) (attribute attrs (m_id m)) \/
                                 absent (m_ty m) (attribute attrs (m_id m))) /\
  forall rf, reply x f attrs rf -> (need (VStruct rf) <= 8)%nat /\ cokv (VStruct rf).
Proof.
  intros x f p vals attrs p' Hf E. unfold safe_handle in E. destruct (fits p) eqn:F; [|discriminate].
  destruct Hf as [<-|[<-|[<-|[<-|[<-|[]]]]]].
  - change (tut_handle p (fn_name f_getStruct) vals) with
      (match vals with [AInt32 key] => (([(0, h_GetStruct p key)], @None bytes), p) | _ => (([], Some s_panic), p) end) in E.
    destruct vals as [|[| | | | | |k| | | | | | | | | | | | | | | | | |] []]; try discriminate. injection E as <- <-.
    split.
    + intros m [[[[] _] _]|(_ & t & Et & ->)]. cbn in Et. injection Et as <-. cbn [m_ty m_id].
      change (attribute _ 0) with (log_get p k). destruct (get_fits p k F) as [-> | G]; [right; left; auto|left; apply entry_kept, G].
    + intros rf Rp. inversion Rp as [m w [[] _]|t w _ Et Ww|t N Et A|N Et]; subst; [| |discriminate].
      * cbn in Et. injection Et as <-. change (attribute _ 0) with (log_get p k) in Ww.
        destruct (get_fits p k F) as [G|G]; [rewrite G in Ww; inversion Ww|].
        destruct (entry_wire _ _ _ G Ww) as (N & C1 & C2). split; [cbn; lia|assumption].
      * split; [cbn; lia|split; reflexivity].
  - split.
    + intros m [[[[] _] _]|(_ & t & Et & _)]. discriminate.
    + intros rf Rp. inversion Rp as [m w [[] _]|t w _ Et Ww|t N Et A|N Et]; subst; try discriminate.
      split; [cbn; lia|split; reflexivity].
  - change (tut_handle p (fn_name f_add) vals) with
      (match vals with [AInt32 a; AInt32 b] => (([(0, AInt32 (h_Add a b))], @None bytes), p) | _ => (([], Some s_panic), p) end) in E.
    destruct vals as [|[| | | | | |a| | | | | | | | | | | | | | | | | |] [|[| | | | | |b| | | | | | | | | | | | | | | | | |] []]]; try discriminate.
    injection E as <- <-. split.
    + intros m [[[[] _] _]|(_ & t & Et & ->)]. cbn in Et. injection Et as <-. left. apply k_i32. apply wraps_range. lia.
    + intros rf Rp. inversion Rp as [m w [[] _]|t w _ Et Ww|t N Et A|N Et]; subst; [| |discriminate]; cbn in Et; injection Et as <-.
      * inversion Ww; subst. split; [cbn; lia|split; reflexivity].
      * destruct A as [(D & _)|(tag & n & cs & D & _)]; discriminate.
  - change (tut_handle p (fn_name f_calculate) vals) with
      (match vals with
       | [AInt32 logid; w] =>
         if wraps 32 logid =? logid then
           match h_Calculate p logid w with
           | Ok (val, ouch, p') => (([(0, AInt32 val); (1, ouch)], @None bytes), p')
           | _ => (([], Some s_panic), p)
           end
         else (([], Some s_panic), p)
       | _ => (([], Some s_panic), p)
       end) in E.
    destruct vals as [|[| | | | | |id| | | | | | | | | | | | | | | | | |] [|w []]]; try discriminate.
    destruct (wraps 32 id =? id); [|discriminate].
    destruct (h_Calculate p id w) as [[[val ouch] q]| |] eqn:C; try discriminate. injection E as <- <-.
    apply calculate_cases in C. destruct C as [V C]. split.
    + intros m [[[[<-|[]] Nm] _]|(_ & t & Et & ->)].
      * change (attribute _ (m_id _)) with ouch in *. destruct C as [[-> _]|(_ & _ & what & why & -> & W & Y)]; [destruct (Nm eq_refl)|].
        left. apply invalid_kept; assumption.
      * cbn in Et. injection Et as <-. left. apply k_i32, V.
    + intros rf Rp. inversion Rp as [m w' [[<-|[]] Nm] _ Ww|t w' _ Et Ww|t N Et A|N Et]; subst; try discriminate.
      * change (attribute _ (m_id _)) with ouch in *. destruct C as [[-> _]|(_ & _ & what & why & -> & W & Y)]; [destruct (Nm eq_refl)|].
        destruct (invalid_wire _ _ _ _ Ww) as (N & C1 & C2). split; [cbn; lia|assumption].
      * cbn in Et. injection Et as <-. inversion Ww; subst. split; [cbn; lia|split; reflexivity].
      * cbn in Et. injection Et as <-. destruct A as [(D & _)|(tag & n & cs & D & _)]; discriminate.
  - split.
    + intros m [[[[] _] _]|(_ & t & Et & _)]. discriminate.
    + intros rf Rp. inversion Rp as [m w [[] _]|t w _ Et Ww|t N Et A|N Et]; subst; try discriminate.
      split; [cbn; lia|split; reflexivity].
Qed.
Lemma safe_texts : forall f p vals attrs text p', In f calculator ->
  safe_handle p (fn_name f) vals = ((attrs, Some text), p') ->
  exc_ok (MkExc INTERNAL_ERROR (s_internal ++ fn_name f ++ s_colon ++ text)).
Proof.
  intros f p vals attrs text p' Hf E.
  assert (text = s_panic) as ->.
  { unfold safe_handle, tut_handle in E. destruct (fits p); [|congruence].
    repeat match type of E with
    | (if ?c then _ else _) = _ => destruct c
    | match ?c with _ => _ end = _ => destruct c
    end; congruence. }
  destruct Hf as [<-|[<-|[<-|[<-|[<-|[]]]]]]; unfold exc_ok; (split; [concrete|split; [concrete|vm_compute; reflexivity]]).
Qed.
Lemma calculator_ok : forall f, In f calculator -> func_ok f.
Proof.
  assert (O : forall n ms, members_ok ms -> (forall m, In m ms -> schema_ok (m_ty m)) -> schema_ok (TyStruct n ms)).
  { intros n ms A B. apply so_struct; assumption. }
  assert (S1 : schema_ok (TyStruct work_name work_ms)).
  { apply O; [members|]. intros m Hm. cbn in Hm. repeat (destruct Hm as [<-|Hm]; [constructor|]). destruct Hm. }
  assert (S2 : schema_ok (TyStruct invalid_name invalid_ms)).
  { apply O; [members|]. intros m Hm. cbn in Hm. repeat (destruct Hm as [<-|Hm]; [constructor|]). destruct Hm. }
  assert (S3 : schema_ok (TyStruct shared_name shared_ms)).
  { apply O; [members|]. intros m Hm. cbn in Hm. repeat (destruct Hm as [<-|Hm]; [constructor|]). destruct Hm. }
  intros f [<-|[<-|[<-|[<-|[<-|[]]]]]];
    (split; [apply O; [members|]; intros m Hm; cbn in Hm;
             repeat (destruct Hm as [<-|Hm]; [first [exact S1|constructor]|]); destruct Hm|]);
    (split; [apply O; [members|]; intros m Hm; cbn in Hm;
             repeat (destruct Hm as [<-|Hm]; [first [exact S2|exact S3|constructor]|]); destruct Hm|]);
    (split; [intros m Hm; cbn in Hm;
             repeat (destruct Hm as [<-|Hm]; [split; [discriminate|eexists _, _; reflexivity]|]); destruct Hm|]);
    (split; [cbn; (discriminate || auto)|]); (split; [concrete|vm_compute; reflexivity]).
Qed.
Lemma asks_ok : forall x q f args, asks q (f, args) ->
  In f calculator /\ fn_oneway f = false /\ kept_args x f args /\
  forall wv, wireof x (TyStruct (args_name f) (fn_args f)) (args_val f args) wv -> (need wv <= 10)%nat /\ cokv wv.
Proof.
  intros x q f args A. inversion A as [|a b Ha Hb|id op a b addr fc comment Hi Ho Ha Hb Bc Lc|k Hk]; subst.
  - split; [cbn; auto|]. split; [reflexivity|]. split.
    + split; [reflexivity|]. apply k_struct; [reflexivity| |]; intros m [].
    + intros wv W. inversion W as [| | | | | | | | | | | |? ? ? ? ? ? F]; subst. cbn in F. inversion F; subst.
      split; [cbn; lia|split; reflexivity].
  - split; [cbn; auto|]. split; [reflexivity|]. split.
    + split; [reflexivity|]. apply k_struct; [reflexivity| |]; intros m [<-|[<-|[]]] G; try discriminate; apply k_i32; assumption.
    + intros wv W. inversion W as [| | | | | | | | | | | |? ? ? ? ? ? F]; subst. cbn in F.
      inversion F; subst; [discriminate|]. clear F. cbn in *.
      match goal with F : wireoff _ _ _ _ |- _ => inversion F; subst; [discriminate|]; clear F end. cbn in *.
      match goal with F : wireoff _ _ [] _ |- _ => inversion F; subst; clear F end.
      wires. split; [cbn; lia|split; reflexivity].
  - split; [cbn; auto 6|]. split; [reflexivity|]. split.
    + split; [reflexivity|]. apply k_struct; [reflexivity| |]; intros m [<-|[<-|[]]] G; try discriminate; [apply k_i32; assumption|].
      clear G. apply k_struct; [reflexivity| |]; intros m [<-|[<-|[<-|[<-|[]]]]] G; try discriminate; try (apply k_i32; assumption).
      * cbn [m_ty m_id] in *. change (attribute _ 3) with (mk_op op) in *. apply k_enum. destruct Ho as [Ho| ->]; [exact Ho|discriminate G].
      * apply k_string; assumption.
      * cbn [m_ty m_id] in *. change (attribute _ 3) with (mk_op op) in *. 
        destruct Ho as [Ho| ->]; [|apply same_scalar; reflexivity].
        exfalso. cbn in G. unfold in_s in Ho. change (2 ^ (32 - 1)) with 2147483648 in Ho. unfold enum_unset in G. lia.
      * cbn [m_ty m_id] in *. change (attribute _ 4) with (AStr comment) in *. cbn in G.
        assert (comment = []) as -> by (apply str_eq_iff; destruct (str_eq comment []); [reflexivity|discriminate]).
        apply same_scalar. reflexivity.
    + intros wv W. inversion W as [| | | | | | | | | | | |? ? ? ? ? ? F]; subst. cbn [sorted_members fn_args f_calculate insert_m m_id Z.ltb Z.compare Pos.compare Pos.compare_cont] in F.
      inversion F as [|? ? ? ? E|? ? ? ? ? E I1 W1 F1]; subst; [discriminate|]. clear F.
      inversion F1 as [|? ? ? ? E2|? ? ? ? ? E2 I2 W2 F2]; subst; [discriminate|]. clear F1.
      inversion F2; subst; clear F2. inversion W1; subst. clear W1.
      inversion W2 as [| | | | | | | | | | | |? ? ? ? ? ? F]; subst. clear W2.
      change (sorted_members work_ms) with work_ms in F. unfold work_ms in F.
      inversion F as [|? ? ? ? E3|? ? ? ? ? E3 I3 W3 F3]; subst; [discriminate|]. clear F.
      inversion F3 as [|? ? ? ? E4|? ? ? ? ? E4 I4 W4 F4]; subst; [discriminate|]. clear F3.
      inversion W3; subst. inversion W4; subst. clear W3 W4.
      inversion F4 as [|? ? ? ? E5 F5|? ? ? ? ? E5 I5 W5 F5]; subst; clear F4.
      * inversion F5 as [|? ? ? ? E6 F6|? ? ? ? ? E6 I6 W6 F6]; subst; clear F5; inversion F6; subst;
          [|inversion W6; subst]; (split; [cbn; lia|split; reflexivity]).
      * inversion W5; subst. inversion F5 as [|? ? ? ? E6 F6|? ? ? ? ? E6 I6 W6 F6]; subst; clear F5; inversion F6; subst;
          [|inversion W6; subst]; (split; [cbn; lia|split; reflexivity]).
  - split; [cbn; auto|]. split; [reflexivity|]. split.
    + split; [reflexivity|]. apply k_struct; [reflexivity| |]; intros m [<-|[]] G; try discriminate; apply k_i32; assumption.
    + intros wv W. inversion W as [| | | | | | | | | | | |? ? ? ? ? ? F]; subst. cbn in F.
      inversion F; subst; [discriminate|]. clear F. cbn in *.
      match goal with F : wireoff _ _ [] _ |- _ => inversion F; subst; clear F end.
      wires. split; [cbn; lia|split; reflexivity].
Qed.
Lemma scalar_same : forall v w, scalar v = true -> same v w -> w = v.
Proof. intros v w S H. inversion H; subst; try discriminate; reflexivity. Qed.
Lemma attrs_same : forall attrs attrs', map fst attrs = map fst attrs' -> NoDup (map fst attrs) ->
  (forall id, In id (map fst attrs) -> same (attribute attrs id) (attribute attrs' id)) ->
  Forall (fun e => scalar (snd e) = true) attrs -> attrs' = attrs.
Proof.
  induction attrs as [|[i v] l IH]; intros [|[j v'] l'] M N H S; try discriminate; [reflexivity|].
  cbn in M. injection M as <- M. inversion N as [|? ? N1 N2]; subst. inversion S as [|? ? S1 S2]; subst. cbn in S1.
  assert (v' = v) as ->.
  { apply (scalar_same v v' S1). specialize (H i (or_introl eq_refl)). unfold attribute in H. cbn in H. rewrite Z.eqb_refl in H. exact H. }
  f_equal. apply IH; try assumption. intros id Hi. specialize (H id (or_intror Hi)). unfold attribute in *. cbn in H.
  assert (i <> id) by (intros ->; contradiction).
  replace (i =? id) with false in H by lia. replace (id =? i) with false in H by lia. exact H.
Qed.
Lemma struct_same : forall ad n fc attrs v, NoDup (map fst attrs) -> Forall (fun e => scalar (snd e) = true) attrs ->
  same (AStruct ad n fc attrs) v -> exists ad' fc', v = AStruct ad' n fc' attrs.
Proof.
  intros ad n fc attrs v N S H. inversion H as [? D| | | |? ? ? ? ad' fc' attrs' M G]; subst; [discriminate|].
  exists ad', fc'. f_equal. apply attrs_same; assumption.
Qed.
Lemma latest_in : forall h k v, latest h k v -> In (k, v) h.
Proof. intros h k v H. induction H; [left; reflexivity|right; assumption]. Qed.
Lemma latest_or : forall h k, (exists v, latest h k v) \/ (forall v, ~ In (k, v) h).
Proof.
  induction h as [|[k' v'] h IH]; intros k; [right; intros v []|].
  destruct (Z.eq_dec k' k) as [->|D]; [left; exists v'; constructor|].
  destruct (IH k) as [[v H]|H]; [left; exists v; constructor; assumption|].
  right. intros v [E|I]; [congruence|exact (H v I)].
Qed.
Lemma log_get_put : forall p k v j, log_get (log_put p k v) j = if j =? k then v else log_get p j.
Proof.
  intros p k v j. unfold log_get, log_put. cbn [find fst]. destruct (k =? j) eqn:E; [replace (j =? k) with true by lia; reflexivity|].
  replace (j =? k) with false by lia. induction p as [|[i w] p IH]; [reflexivity|]. cbn [filter fst].
  destruct (i =? k) eqn:K; cbn [negb find fst]; [|destruct (i =? j); [reflexivity|exact IH]].
  replace (i =? j) with false by lia. exact IH.
Qed.
Lemma put_logged : forall p h id z, logged p h -> in_s 32 id -> in_s 32 z ->
  logged (log_put p id (mk_shared id (FormatInt z))) ((id, z) :: h).
Proof.
  intros p h id z [L1 L2] Hi Hz. split.
  - intros k v H. rewrite log_get_put. inversion H as [? ? ? E|? ? ? ? ? D H' E]; subst.
    + rewrite Z.eqb_refl. split; [assumption|]. split; [assumption|]. eexists _, _, _. split; [reflexivity|].
      apply FormatInt_decimal. unfold in_s in *. change (2 ^ (32 - 1)) with 2147483648 in *. change (2 ^ (64 - 1)) with 9223372036854775808. lia.
    + replace (k =? id) with false by lia. apply L1, H'.
  - intros k H. rewrite log_get_put. destruct (k =? id) eqn:E.
    + destruct (H z). left. f_equal; lia.
    + apply L2. intros v I. apply (H v). right. exact I.
Qed.
Lemma quot_value : forall a b, b <> 0 -> value 4 a b (Z.quot a b).
Proof.
  intros a b Hb. apply va_div with (Z.rem a b); [exact Hb|apply Z.quot_rem'|apply Z.rem_bound_abs, Hb|].
  apply Z.rem_sign_mul, Hb.
Qed.

Lemma served_value : forall f args p r p', served tut_handle f args p r p' ->
  (forall vals, Forall2 same args vals -> snd (fst (tut_handle p (fn_name f) vals)) = None) ->
  exists vals attrs attrs', Forall2 same args vals /\ tut_handle p (fn_name f) vals = ((attrs, None), p') /\
    returned f attrs attrs' /\ r = (attrs', None).
Proof.
  intros f args p r p' S N. destruct S as [vals attrs p' attrs' F E Rt|vals attrs text p' F E].
  - exists vals, attrs, attrs'. auto.
  - specialize (N vals F). rewrite E in N. discriminate.
Qed.
Lemma no_exc : forall f attrs n, fn_exc f = [] -> ~ thrown f attrs n.
Proof. intros f attrs n E [H _]. rewrite E in H. destruct H. Qed.
Definition work (ad : Z) (fc : fcont) (a b op : Z) (c : bytes) : any :=
  AStruct ad work_name fc [(1, AInt32 a); (2, AInt32 b); (3, mk_op op); (4, AStr c)].
Lemma calculate_eq : forall p id ad fc a b op c, in_s 32 id ->
  tut_handle p (fn_name f_calculate) [AInt32 id; work ad fc a b op c] =
  (let keep v := (([(0, AInt32 (wraps 32 v)); (1, ANil)], @None bytes), log_put p id (mk_shared id (FormatInt (wraps 32 v)))) in
   let refuse why := (([(0, AInt32 0); (1, mk_invalid (wraps 32 op) why)], @None bytes), p) in
   if op =? 1 then keep (a + b) else if op =? 2 then keep (a - b) else if op =? 3 then keep (a * b)
   else if op =? 4 then if b =? 0 then refuse s_divide else keep (Z.quot a b) else refuse s_operation).
Proof.
  intros p id ad fc a b op c Hi.
  change (tut_handle p (fn_name f_calculate) [AInt32 id; work ad fc a b op c]) with
    (if wraps 32 id =? id then
       match h_Calculate p id (work ad fc a b op c) with
       | Ok (val, ouch, p') => (([(0, AInt32 val); (1, ouch)], @None bytes), p')
       | _ => (([], Some s_panic), p)
       end
     else (([], Some s_panic), p)).
  rewrite wraps_id, Z.eqb_refl by (lia || assumption). unfold h_Calculate, work.
  change (attribute _ 3) with (mk_op op). change (attribute _ 1) with (AInt32 a). change (attribute _ 2) with (AInt32 b).
  rewrite op_value. unfold ADD, SUBTRACT, MULTIPLY, DIVIDE. cbv zeta.
  destruct (op =? 1); [reflexivity|]. destruct (op =? 2); [reflexivity|]. destruct (op =? 3); [reflexivity|].
  destruct (op =? 4); [destruct (b =? 0)|]; reflexivity.
Qed.
Lemma returned_calculate : forall val ouch attrs', (ouch = ANil \/ exists what why, ouch = mk_invalid what why) ->
  returned f_calculate [(0, AInt32 val); (1, ouch)] attrs' ->
  match ouch with
  | ANil => attribute attrs' 0 = AInt32 val /\ attribute attrs' 1 = ANil
  | _ => same ouch (attribute attrs' 1)
  end.
Proof.
  intros val ouch attrs' Ho (Em & Rc & Ri).
  set (mo := Mem 1 (lit "ouch") false None (TyStruct invalid_name invalid_ms)).
  set (ms := Mem 0 s_success false None TyI32).
  assert (T : forall n, thrown f_calculate [(0, AInt32 val); (1, ouch)] n <-> n = mo /\ ouch <> ANil).
  { intros n. split.
    - intros [[<-|[]] N]. auto.
    - intros [-> N]. split; [left; reflexivity|exact N]. }
  destruct Ho as [-> |(what & why & ->)].
  - assert (N : forall n, ~ thrown f_calculate [(0, AInt32 val); (1, ANil)] n) by (intros n H; apply T in H; destruct H as [_ H]; apply H; reflexivity).
    split.
    + assert (chosen f_calculate [(0, AInt32 val); (1, ANil)] ms) as C by (right; split; [exact N|eexists; split; reflexivity]).
      apply Rc in C. cbn [m_id ms] in C. apply scalar_same in C; [exact C|reflexivity].
    + change (attribute attrs' (m_id mo) = m_init mo). apply Ri; [right; left; reflexivity|].
      intros [[H _]|(_ & t & _ & E)]; [exact (N mo H)|discriminate].
  - unfold mk_invalid at 1. change 1 with (m_id mo). apply (Rc mo). left. split; [apply T; split; [reflexivity|discriminate]|].
    intros n H. apply T in H. destruct H as [-> _]. lia.
Qed.
Lemma step : forall q f args p h r p', asks q (f, args) -> logged p h -> served tut_handle f args p r p' ->
  exists a h', answers h q a h' /\ shows a r /\ logged p' h'.
Proof.
  intros q f args p h r p' A L S.
  inversion A as [|a b Ha Hb|id op a b addr fc comment Hi Ho Ha Hb Bc Lc|k Hk]; subst; clear A.
  - apply served_value in S; [|reflexivity]. destruct S as (vals & attrs & attrs' & F & E & (Em & _) & ->).
    change (tut_handle p (fn_name f_ping) vals) with (([] : list (Z * any), @None bytes), p) in E.
    injection E as <- <-. exists Done, h. split; [constructor|]. split; [|exact L].
    split; [reflexivity|]. cbn in Em. destruct attrs'; [reflexivity|discriminate].
  - assert (Vs : forall vals, Forall2 same [AInt32 a; AInt32 b] vals -> vals = [AInt32 a; AInt32 b]).
    { intros vals F. inversion F as [|? v1 ? ? S1 F1]; subst. inversion F1 as [|? v2 ? ? S2 F2]; subst. inversion F2; subst.
      apply scalar_same in S1, S2; try reflexivity. subst. reflexivity. }
    apply served_value in S; [|intros vals F; rewrite (Vs vals F); reflexivity].
    destruct S as (vals & attrs & attrs' & F & E & (Em & Rc & _) & ->). rewrite (Vs vals F) in E.
    change (tut_handle p (fn_name f_add) [AInt32 a; AInt32 b]) with (([(0, AInt32 (h_Add a b))], @None bytes), p) in E.
    injection E as <- <-. exists (Number (wraps 32 (a + b))), h. split; [constructor; apply int32_wraps|]. split; [|exact L].
    split; [reflexivity|]. specialize (Rc (Mem 0 s_success false None TyI32)). cbn [m_id fst] in *. split.
    + assert (same (AInt32 (h_Add a b)) (attribute attrs' 0)) as Q.
      { apply Rc. right. split; [intros n; apply no_exc; reflexivity|eexists; split; reflexivity]. }
      apply scalar_same in Q; [exact Q|reflexivity].
    + cbn in Em. destruct attrs' as [|[i v] [|]]; try discriminate. injection Em as ->. reflexivity.
  - fold (work addr fc a b op comment) in S.
    assert (Vs : forall vals, Forall2 same [AInt32 id; work addr fc a b op comment] vals ->
      exists ad' fc', vals = [AInt32 id; work ad' fc' a b op comment]).
    { intros vals F. inversion F as [|? v1 ? ? S1 F1]; subst. inversion F1 as [|? v2 ? ? S2 F2]; subst. inversion F2; subst.
      apply scalar_same in S1; [|reflexivity]. apply struct_same in S2;
        [|cbn; nodup|repeat constructor]. destruct S2 as (ad' & fc' & ->). exists ad', fc'. subst v1. reflexivity. }
    apply served_value in S.
    2:{ intros vals F. destruct (Vs vals F) as (ad' & fc' & ->). rewrite calculate_eq by exact Hi. cbv zeta.
        repeat match goal with |- context [if ?c then _ else _] => destruct c end; reflexivity. }
    destruct S as (vals & attrs & attrs' & F & E & Rt & ->). destruct (Vs vals F) as (ad' & fc' & ->).
    rewrite calculate_eq in E by exact Hi. cbv zeta in E.
    assert (K : forall v, value op a b v ->
      (([(0, AInt32 (wraps 32 v)); (1, ANil)], @None bytes), log_put p id (mk_shared id (FormatInt (wraps 32 v)))) = ((attrs, None), p') ->
      exists a0 h', answers h (QCalculate id op a b) a0 h' /\ shows a0 (attrs', None) /\ logged p' h').
    { intros v Hv Q. injection Q as <- <-. apply returned_calculate in Rt; [|left; reflexivity]. cbn in Rt.
      exists (Number (wraps 32 v)), ((id, wraps 32 v) :: h). split; [econstructor; [exact Hv|apply int32_wraps]|].
      split; [split; [reflexivity|exact Rt]|]. apply put_logged; try assumption. apply wraps_range. lia. }
    assert (Q : forall why a0, answers h (QCalculate id op a b) (Refused (wraps 32 op) why) h ->
      (([(0, AInt32 0); (1, mk_invalid (wraps 32 op) a0)], @None bytes), p) = ((attrs, None), p') -> a0 = lit why ->
      exists a0 h', answers h (QCalculate id op a b) a0 h' /\ shows a0 (attrs', None) /\ logged p' h').
    { intros why a0 Hn Q ->. injection Q as <- <-. apply returned_calculate in Rt; [|right; eexists _, _; reflexivity].
      exists (Refused (wraps 32 op) why), h. split; [exact Hn|]. split; [|exact L]. split; [reflexivity|].
      unfold mk_invalid in Rt. apply struct_same in Rt; [exact Rt|cbn; nodup|repeat constructor]. }
    destruct (op =? 1) eqn:O1; [apply (K (a + b)); [replace op with 1 by lia; constructor|exact E]|].
    destruct (op =? 2) eqn:O2; [apply (K (a - b)); [replace op with 2 by lia; constructor|exact E]|].
    destruct (op =? 3) eqn:O3; [apply (K (a * b)); [replace op with 3 by lia; constructor|exact E]|].
    destruct (op =? 4) eqn:O4.
    + replace op with 4 in * by lia. destruct (b =? 0) eqn:B0.
      * replace b with 0 in * by lia. apply (Q "Cannot divide by 0"%string s_divide); [constructor|exact E|reflexivity].
      * apply (K (Z.quot a b)); [apply quot_value; lia|exact E].
    + apply (Q "Unknown operation"%string s_operation); [constructor; [lia|apply int32_wraps]|exact E|reflexivity].
  - assert (Vs : forall vals, Forall2 same [AInt32 k] vals -> vals = [AInt32 k]).
    { intros vals F. inversion F as [|? v1 ? ? S1 F1]; subst. inversion F1; subst.
      apply scalar_same in S1; try reflexivity. subst. reflexivity. }
    apply served_value in S; [|intros vals F; rewrite (Vs vals F); reflexivity].
    destruct S as (vals & attrs & attrs' & F & E & (Em & Rc & _) & ->). rewrite (Vs vals F) in E.
    change (tut_handle p (fn_name f_getStruct) [AInt32 k]) with (([(0, log_get p k)], @None bytes), p) in E.
    injection E as <- <-. specialize (Rc (Mem 0 s_success false None (TyStruct shared_name shared_ms))). cbn [m_id fst] in *.
    assert (same (log_get p k) (attribute attrs' 0)) as Q.
    { apply Rc. right. split; [intros n; apply no_exc; reflexivity|eexists; split; reflexivity]. }
    destruct (latest_or h k) as [[v Hv]|Hn].
    + destruct L as [L1 L2]. destruct (L1 k v Hv) as (_ & _ & ad & fc & t & G & D). rewrite G in Q.
      apply struct_same in Q; [|cbn; nodup|repeat constructor]. destruct Q as (ad' & fc' & Q).
      exists (Entry k v), h. split; [constructor; exact Hv|]. split; [|split; assumption].
      split; [reflexivity|]. exists ad', fc', t. split; assumption.
    + exists Nothing, h. split; [constructor; exact Hn|]. destruct L as [L1 L2]. rewrite (L2 k Hn) in Q.
      apply scalar_same in Q; [|reflexivity]. split; [|split; assumption]. split; [reflexivity|exact Q].
Qed.
Lemma steps : forall qs l p h rs p', Forall2 asks qs l -> logged p h -> serves tut_handle l p rs p' ->
  exists a h', dialogue h qs a h' /\ Forall2 shows a rs /\ logged p' h'.
Proof.
  intros qs l p h rs p' A. revert p h rs. induction A as [|q [f args] qs l Hq A IH]; intros p h rs L S.
  - inversion S; subst. exists [], h. split; [constructor|]. split; [constructor|exact L].
  - inversion S as [|? ? ? ? r p1 rs1 ? S1 S2]; subst.
    destruct (step _ _ _ _ _ _ _ Hq L S1) as (a & h1 & Ha & Sh & L1).
    destruct (IH p1 h1 rs1 L1 S2) as (al & h2 & D & F & L2).
    exists (a :: al), h2. split; [econstructor; eassumption|]. split; [constructor; assumption|exact L2].
Qed.
Lemma asked_ok : forall x qs l, Forall2 asks qs l -> forall f args, In (f, args) l ->
  In f calculator /\ fn_oneway f = false /\ kept_args x f args /\
  forall wv, wireof x (TyStruct (args_name f) (fn_args f)) (args_val f args) wv -> (need wv <= 10)%nat /\ cokv wv.
Proof.
  intros x qs l A f args H. induction A as [|q [g ar] qs l Hq A IH]; [destruct H|].
  destruct H as [E|H]; [injection E as -> ->; eapply asks_ok, Hq|apply IH, H].
Qed.
Lemma calculator_names : NoDup (map fn_name calculator).
Proof. vm_compute. nodup. Qed.

(** Any requests, in any order and number, on a server whose log holds what [h] says: every one is answered as it
    should be, and the log holds what was calculated since.  Over the binary protocol and pieces of any sizes.
    Missing: zip, which is oneway (C47_oneway_refuted), and calculate without a Work, see below. *)
Theorem C102_binary_partial : forall strict strictW x M cf fuel errtext cut qs l p h,
  orders x -> strictW = true \/ strict = false -> cuts cut -> (10 <= fuel)%nat ->
  Forall2 asks qs l -> fits p = true -> logged p h ->
  exists rs st a h', calls (binaryR strict) (binaryW strictW) nop (fun s => s) (fun s => s) x M cf fuel errtext tut_handle
      calculator bdrain bfeed cut 0 l (bstart p) = Ok (rs, st) /\
    dialogue h qs a h' /\ Forall2 shows a rs /\ logged (pr_h st) h' /\ fits (pr_h st) = true /\
    o_own (pr_w st) = MkWt [] [] /\ pr_out st = MkWt [] [] /\
    content (i_own (pr_w st)) = [] /\ content (pr_in st) = [].
Proof.
  intros strict strictW x M cf fuel errtext cut qs l p h Ho Hst Hc Hf A Fp L.
  destruct (C47_binary_partial tlog strict strictW x M cf fuel errtext safe_handle calculator cut l p)
    as (rs & st & E & Sv & O); try assumption; try lia.
  - exact calculator_ok.
  - exact calculator_names.
  - intros f q vals attrs q' If E. destruct (safe_results x f q vals attrs q' If E) as [K N]. split; [exact K|].
    intros rf Rp. destruct (N rf Rp). lia.
  - exact safe_texts.
  - intros f args H. destruct (asked_ok x _ _ A f args H) as (If & One & Ka & W).
    split; [exact If|]. split; [exact One|]. split; [exact Ka|]. intros wv Ww. destruct (W wv Ww). lia.
  - assert (Ag : forall q name vals, fits q = true -> tut_handle q name vals = safe_handle q name vals)
      by (intros q name vals Q; unfold safe_handle; rewrite Q; reflexivity).
    destruct (serves_agree tut_handle safe_handle (fun q => fits q = true) Ag safe_keeps l p rs _ Fp Sv) as [Sv' Fp'].
    destruct (steps _ _ _ _ _ _ A L Sv') as (a & h' & D & Sh & L').
    exists rs, st, a, h'. split; [|tauto].
    rewrite (calls_agree _ _ _ _ _ _ _ _ _ _ tut_handle safe_handle (fun q => fits q = true) Ag safe_keeps); [exact E|exact Fp].
Qed.
Print Assumptions C102_binary_partial.

(** The same over the compact protocol. *)
Theorem C102_compact_partial : forall x M cf fuel errtext cut qs l p h,
  orders x -> cuts cut -> (10 <= fuel)%nat ->
  Forall2 asks qs l -> fits p = true -> logged p h ->
  exists rs st a h', calls compactR compactW nop cfreshR cfreshW x M cf fuel errtext tut_handle
      calculator cdrain cfeed cut 0 l (cstart p) = Ok (rs, st) /\
    dialogue h qs a h' /\ Forall2 shows a rs /\ logged (pr_h st) h' /\ fits (pr_h st) = true /\
    w_out (fst (o_own (pr_w st))) = [] /\ w_out (fst (pr_out st)) = [] /\
    content (fst (i_own (pr_w st))) = [] /\ content (fst (pr_in st)) = [].
Proof.
  intros x M cf fuel errtext cut qs l p h Ho Hc Hf A Fp L.
  destruct (C47_compact_partial tlog x M cf fuel errtext safe_handle calculator cut l p)
    as (rs & st & E & Sv & O); try assumption; try lia.
  - exact calculator_ok.
  - exact calculator_names.
  - intros f m If Im.
    destruct If as [<-|[<-|[<-|[<-|[<-|[]]]]]]; cbn in Im;
      repeat (destruct Im as [<-|Im]; [cbn; repeat constructor; intros ? J; repeat (destruct J as [<-|J]; [constructor|]); destruct J|]); destruct Im.
  - intros f q vals attrs q' If E. destruct (safe_results x f q vals attrs q' If E) as [K N]. split; [exact K|].
    intros rf Rp. destruct (N rf Rp). split; [assumption|lia].
  - exact safe_texts.
  - intros f args H. destruct (asked_ok x _ _ A f args H) as (If & One & Ka & W).
    split; [exact If|]. split; [exact One|]. split; [exact Ka|]. intros wv Ww. destruct (W wv Ww). split; [assumption|lia].
  - assert (Ag : forall q name vals, fits q = true -> tut_handle q name vals = safe_handle q name vals)
      by (intros q name vals Q; unfold safe_handle; rewrite Q; reflexivity).
    destruct (serves_agree tut_handle safe_handle (fun q => fits q = true) Ag safe_keeps l p rs _ Fp Sv) as [Sv' Fp'].
    destruct (steps _ _ _ _ _ _ A L Sv') as (a & h' & D & Sh & L').
    exists rs, st, a, h'. split; [|tauto].
    rewrite (calls_agree _ _ _ _ _ _ _ _ _ _ tut_handle safe_handle (fun q => fits q = true) Ag safe_keeps); [exact E|exact Fp].
Qed.
Print Assumptions C102_compact_partial.

(** Requests have one answer each. *)
Lemma value_quot : forall a b v, value 4 a b v -> b <> 0 /\ v = Z.quot a b.
Proof.
  intros a b v H. inversion H as [| | |? ? q r B E Ab Sg]; subst. split; [exact B|].
  apply (fun R E => proj1 (Zquot.Zquot_mod_unique_full (b * v + r) b v r R E)); [|reflexivity]. unfold Zquot.Remainder.
  set (a := b * v + r) in *. destruct (Z.lt_trichotomy a 0) as [A|[A|A]]; [right|destruct (Z.le_gt_cases 0 r); [left|right]|left]; nia.
Qed.
Lemma value_fun : forall op a b v v', value op a b v -> value op a b v' -> v = v'.
Proof.
  intros op a b v v' H H'. destruct (Z.eq_dec op 4) as [-> |N].
  - apply value_quot in H, H'. destruct H as [_ ->]. destruct H' as [_ ->]. reflexivity.
  - destruct H; inversion H'; subst; congruence.
Qed.
Lemma int32_fun : forall v z z', int32_of v z -> int32_of v z' -> z = z'.
Proof.
  intros v z z' [H [k E]] [H' [k' E']]. unfold in_s in *. change (2 ^ (32 - 1)) with 2147483648 in *. change (2 ^ 32) with 4294967296 in *. lia.
Qed.
Lemma latest_fun : forall h k v v', latest h k v -> latest h k v' -> v = v'.
Proof.
  intros h k v v' H. induction H as [|k v k' w h D H IH]; intros H'; inversion H'; subst; try congruence. apply IH. assumption.
Qed.
(** The requirement leaves no choice. *)
Theorem C102_one_answer : forall h q a h1 a' h1', answers h q a h1 -> answers h q a' h1' -> a = a' /\ h1 = h1'.
Proof.
  intros h q a h1 a' h1' H H'.
  destruct H as [h|h a b z Z1|h id op a b v z V Z1|h id a|h id op a b w N Z1|h k v L|h k N];
    inversion H' as [?|? ? ? z' Z2|? ? ? ? ? v' z' V' Z2|? ? ?|? ? ? ? ? w' N' Z2|? ? v' L'|? ? N']; subst; try (split; reflexivity).
  - rewrite (int32_fun _ _ _ Z1 Z2). auto.
  - rewrite (value_fun _ _ _ _ _ V V') in Z1. rewrite (int32_fun _ _ _ Z1 Z2). auto.
  - apply value_quot in V. lia.
  - inversion V; subst; lia.
  - apply value_quot in V'. lia.
  - lia.
  - inversion V'; subst; lia.
  - lia.
  - rewrite (int32_fun _ _ _ Z1 Z2). auto.
  - rewrite (latest_fun _ _ _ _ L L'). auto.
  - destruct (N' _ (latest_in _ _ _ L)).
  - destruct (N _ (latest_in _ _ _ L')).
Qed.
Print Assumptions C102_one_answer.

(** The calls of GoClient.go, on a server whose log holds anything: each gets its answer, and the log its entry. *)
Definition perform_requests : list request := [QPing; QAdd 1 1; QCalculate 1 4 1 0; QCalculate 1 2 15 10; QGet 1].
Theorem C102_client : forall strict strictW x M cf fuel errtext cut p h,
  orders x -> strictW = true \/ strict = false -> cuts cut -> (10 <= fuel)%nat -> fits p = true -> logged p h ->
  exists rs st, calls (binaryR strict) (binaryW strictW) nop (fun s => s) (fun s => s) x M cf fuel errtext tut_handle
      calculator bdrain bfeed cut 0 Perform (bstart p) = Ok (rs, st) /\
    Forall2 shows [Done; Number 2; Refused 4 "Cannot divide by 0"; Number 5; Entry 1 5] rs /\
    logged (pr_h st) ((1, 5) :: h).
Proof.
  intros strict strictW x M cf fuel errtext cut p h Ho Hst Hc Hf Fp L.
  assert (A : Forall2 asks perform_requests Perform).
  { assert (I : forall z, -1000 <= z <= 1000 -> in_s 32 z) by (intros z Hz; unfold in_s; change (2 ^ (32 - 1)) with 2147483648; lia).
    assert (C : forall id op a b, -1000 <= id <= 1000 -> -1000 <= op <= 1000 -> -1000 <= a <= 1000 -> -1000 <= b <= 1000 ->
      asks (QCalculate id op a b) (f_calculate, [AInt32 id; new_work op a b])).
    { intros id op a b H1 H2 H3 H4. apply as_calculate; auto; [apply Forall_nil|vm_compute; reflexivity]. }
    apply Forall2_cons; [exact as_ping|]. apply Forall2_cons; [apply as_add; apply I; lia|].
    apply Forall2_cons; [apply (C 1 4 1 0); lia|]. apply Forall2_cons; [apply (C 1 2 15 10); lia|].
    apply Forall2_cons; [apply as_get, I; lia|]. apply Forall2_nil. }
  destruct (C102_binary_partial strict strictW x M cf fuel errtext cut _ _ p h Ho Hst Hc Hf A Fp L)
    as (rs & st & a & h' & E & D & Sh & L' & _).
  exists rs, st. split; [exact E|].
  assert (W : forall v z, in_s 32 v -> int32_of v z -> z = v).
  { intros v z Hv H. eapply int32_fun; [exact H|]. split; [exact Hv|exists 0; lia]. }
  assert (I2 : in_s 32 2) by (unfold in_s; cbn; lia). assert (I5 : in_s 32 5) by (unfold in_s; cbn; lia).
  inversion D as [|? ? a1 h1 ? l1 ? A1 D1]; subst. inversion A1; subst. clear A1 D.
  inversion D1 as [|? ? a2 h2 ? l2 ? A2 D2]; subst. inversion A2 as [|? ? ? z2 Z2| | | | |]; subst. clear A2 D1.
  apply W in Z2; [|exact I2]. subst z2.
  inversion D2 as [|? ? a3 h3 ? l3 ? A3 D3]; subst. inversion A3 as [| |? ? ? ? ? v3 z3 V3| |? ? ? ? ? w3 N3| |]; subst; [inversion V3; lia| |lia]. clear A3 D2.
  inversion D3 as [|? ? a4 h4 ? l4 ? A4 D4]; subst. inversion A4 as [| |? ? ? ? ? v4 z4 V4 Z4| |? ? ? ? ? w4 N4| |]; subst; [|lia]. clear A4 D3.
  assert (v4 = 5) as -> by (inversion V4; lia). apply W in Z4; [|exact I5]. subst z4.
  inversion D4 as [|? ? a5 h5 ? l5 ? A5 D5]; subst. inversion D5; subst. clear D4 D5.
  inversion A5 as [| | | | |? ? v5 V5|? ? N5]; subst; [|destruct (N5 5); left; reflexivity].
  inversion V5 as [|? ? ? ? ? D]; subst; [|destruct (D eq_refl)].
  split; [exact Sh|exact L'].
Qed.
Print Assumptions C102_client.

(** A new server's log is empty and holds what the empty history says.  A log that was written to, one that has an
    entry replaced, requests of every kind, an operation never set. *)
Example C102_ex :
  orders ext0 /\ cuts (fun _ => pairs_of) /\ fits [] = true /\ logged [] [] /\
  (let p := log_put (log_put [] 7 (mk_shared 7 (FormatInt 9))) 7 (mk_shared 7 (FormatInt (-3))) in
   fits p = true /\ logged p [(7, -3); (7, 9)]) /\
  Forall2 asks [QAdd 2147483647 1; QCalculate 7 4 (-7) 2; QGet 7; QGet 8; QCalculate 1 enum_unset 1 2]
    [(f_add, [AInt32 2147483647; AInt32 1]); (f_calculate, [AInt32 7; new_work 4 (-7) 2]); (f_getStruct, [AInt32 7]);
     (f_getStruct, [AInt32 8]); (f_calculate, [AInt32 1; new_work enum_unset 1 2])] /\
  exists a, dialogue [] [QAdd 2147483647 1; QCalculate 7 4 (-7) 2; QGet 7; QGet 8; QCalculate 1 enum_unset 1 2]
    a [(7, -3)] /\ a = [Number (-2147483648); Number (-3); Entry 7 (-3); Nothing; Refused 2147483647 "Unknown operation"].
Proof.
  assert (I : forall z, -2147483648 <= z <= 2147483647 -> in_s 32 z) by (intros z Hz; unfold in_s; change (2 ^ (32 - 1)) with 2147483648; lia).
  assert (L0 : logged [] []) by (split; [intros k v H; inversion H|intros k _; reflexivity]).
  split; [exact ext0_orders|]. split; [exact pairs_cuts|]. split; [reflexivity|]. split; [exact L0|].
  split; [split; [vm_compute; reflexivity|apply put_logged; [apply put_logged; [exact L0|apply I; lia..]|apply I; lia..]]|].
  split.
  { assert (C : forall id op a b, in_s 32 id -> in_s 32 op \/ op = enum_unset -> in_s 32 a -> in_s 32 b ->
      asks (QCalculate id op a b) (f_calculate, [AInt32 id; new_work op a b])).
    { intros id op a b H1 H2 H3 H4. apply as_calculate; auto; [apply Forall_nil|vm_compute; reflexivity]. }
    apply Forall2_cons; [apply as_add; apply I; lia|].
    apply Forall2_cons; [apply C; [apply I; lia|left; apply I; lia|apply I; lia..]|].
    apply Forall2_cons; [apply as_get, I; lia|]. apply Forall2_cons; [apply as_get, I; lia|].
    apply Forall2_cons; [apply C; [apply I; lia|right; reflexivity|apply I; lia..]|]. apply Forall2_nil. }
  eexists. split; [|reflexivity].
  eapply di_cons; [apply an_add; split; [apply I; lia|exists (-1); lia]|].
  eapply di_cons; [apply an_value with (-3); [apply va_div with (-1); lia|split; [apply I; lia|exists 0; lia]]|].
  eapply di_cons; [apply an_entry, la_here|].
  eapply di_cons; [apply an_nothing; intros v [Q|[]]; discriminate|].
  eapply di_cons; [apply an_operation; [unfold enum_unset; lia|split; [apply I; lia|exists 1; unfold enum_unset; lia]]|].
  apply di_nil.
Qed.

(** calculate without a Work: the generated client sends it, the processor reads a nil, and the handler panics. *)
Theorem C102_nil_refuted : forall p id, exists b vals, b =
    (match send (binaryW true) nop (fun s => s) ext0 40 f_calculate [AInt32 1; ANil] new_client_factory
             (MkWorld (MkWt [] []) (MkWt [] []) ([] : rt) []) with
     | Ok (None, _, w) => w_out (o_own w) | _ => [] end) /\
  (exists s1, bReadMessageBegin true [(b, None)] = Ok ((fn_name f_calculate, CALL, 1), None, s1) /\
     exists ad n fc s2, gread (binaryR true) ext0 64 5 40 (TyStruct (args_name f_calculate) (fn_args f_calculate)) s1 =
       Ok (inl (AStruct ad n fc vals), s2)) /\
  attribute vals 2 = ANil /\ h_Calculate p id (attribute vals 2) = Panic.
Proof.
  intros p id. eexists _, _. split; [reflexivity|]. split; [|split; [|]].
  - eexists. split; [vm_compute; reflexivity|]. eexists _, _, _, _. vm_compute. reflexivity.
  - reflexivity.
  - reflexivity.
Qed.
Print Assumptions C102_nil_refuted.

(** A client that calls zip and then adds does not get the sum. *)
Theorem C102_zip_refuted : exists r st,
  calls (binaryR true) (binaryW true) nop (fun s => s) (fun s => s) ext0 64 5 40 errtext0 tut_handle
    calculator bdrain bfeed (fun _ b => [b]) 0 [(f_zip, []); (f_add, [AInt32 1; AInt32 1])] (bstart []) = Ok ([([], None); r], st) /\
  snd r = Some (RApp (MkExc BAD_SEQUENCE_ID s_sequence)) /\ attribute (fst r) 0 = AInt32 0.
Proof. eexists _, _. split; [vm_compute; reflexivity|]. split; reflexivity. Qed.
Print Assumptions C102_zip_refuted.

(** None of the names the tutorial uses for the operations is declared in the package generated for it. *)
Theorem C102_names_refuted : used_names <> [] /\ forall n, In n used_names -> ~ In n declared_names.
Proof.
  split; [discriminate|]. intros n [<-|[<-|[<-|[<-|[]]]]]; vm_compute; intuition discriminate.
Qed.
Print Assumptions C102_names_refuted.

(** With the prefix they are the operations meant: String() of each is the name the handler has for it, and nothing else has one. *)
Theorem C102_operations : forall n z, as_stringer (mk_op z) = Some (op_name ++ lit "_" ++ n) <->
  n = lit "ADD" /\ z = ADD \/ n = lit "SUBTRACT" /\ z = SUBTRACT \/ n = lit "MULTIPLY" /\ z = MULTIPLY \/ n = lit "DIVIDE" /\ z = DIVIDE.
Proof.
  intros n z. unfold mk_op, mk_enum, as_stringer. cbn [enum_String op_consts].
  assert (I : forall a, Some (enum_label op_name a) = Some (op_name ++ lit "_" ++ n) <-> n = a).
  { intro a. unfold enum_label. change [95] with (lit "_"). split; [|intros ->; reflexivity]. intro E. injection E as E.
    repeat (apply app_inv_head in E). symmetry. exact E. }
  destruct (Z.eqb_spec z 1) as [->|N1]; [|destruct (Z.eqb_spec z 2) as [->|N2]; [|destruct (Z.eqb_spec z 3) as [->|N3]; [|destruct (Z.eqb_spec z 4) as [->|N4]]]];
    try (rewrite I; unfold ADD, SUBTRACT, MULTIPLY, DIVIDE; split; [intros ->; auto 10|intros [[-> Q]|[[-> Q]|[[-> Q]|[-> Q]]]]; try reflexivity; discriminate Q]).
  unfold ADD, SUBTRACT, MULTIPLY, DIVIDE. split; [intro E; vm_compute in E; discriminate E|intuition lia].
Qed.
Print Assumptions C102_operations.
