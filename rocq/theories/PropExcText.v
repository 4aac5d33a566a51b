(** C44: the exceptions a processor writes, spelled out byte by byte. *)
From Coq Require Import ZArith List Bool Lia String.
From Verif Require Import Base Arith Errors Transport TransportProofs Proto Values WfDec Access
  Skip SkipProofs F64 TField GoVal Names Compare TList TSet TMap Depth Gen GenSpec GenProofs GenInst GenRound
  BinaryProofs BinarySpec Binary BinaryMsg PropBinary PropGen
  AppExc AppExcProofs PropRpc Rpc RpcProofs PropService.
Import ListNotations.
Local Open Scope list_scope.
Local Notation length := List.length.
Open Scope Z_scope.

(** A TApplicationException on the wire: field 1 the text, field 2 the code, stop
    (lib/go/src/thrift/tapplication_exception.go:140-159, over TBinaryProtocol). *)
Definition exc_bytes (code : Z) (text : bytes) : bytes :=
  [11; 0; 1] ++ be 4 (Z.of_nat (length text)) ++ text ++ [8; 0; 2; 0; 0; 0; code; 0].

Lemma exc_bytes_eq : forall c t, t <> [] -> 0 <= c < 256 -> sb_val (VStruct (exc_fields (MkExc c t))) = exc_bytes c t.
Proof.
  intros c [|a t] Ht Hc; [destruct (Ht eq_refl)|]. unfold exc_fields, exc_bytes.
  cbn [x_msg x_type app sb_val map concat fst snd vtype].
  unfold sb_string, sb_i32, sb_field, sb_stop.
  assert (B : be 4 c = [0; 0; 0; c]).
  { cbn [be]. change (Z.of_nat 3) with 3. change (Z.of_nat 2) with 2. change (Z.of_nat 1) with 1. change (Z.of_nat 0) with 0.
    rewrite (Z.div_small c (256 ^ 3)), (Z.div_small c (256 ^ 2)), (Z.div_small c (256 ^ 1)) by (cbn; lia).
    change (256 ^ 0) with 1. rewrite Z.div_1_r, (Z.mod_small c 256) by lia. reflexivity. }
  rewrite B. change (be 2 1) with [0; 1]. change (be 2 2) with [0; 2]. change STRING with 11. change I32 with 8.
  cbn [List.concat app]. rewrite <- !app_assoc. cbn [app]. rewrite <- ?app_assoc. cbn [app]. reflexivity.
Qed.

(** A handler that fails: whatever it says is passed on, after the name of the function
    (t_go_generator.cc:2367-2377). *)
Theorem C44_failed_text_partial : forall H strict strictC strictW x M cf fuel errtext
    (handle : H -> bytes -> list any -> (list (Z * any) * option bytes) * H) fs f args h si o seq wv rest,
  orders x -> strictC = true \/ strict = false ->
  (forall f, In f fs -> func_ok f) -> NoDup (map fn_name fs) ->
  (forall vals, Forall2 same args vals -> snd (fst (handle h (fn_name f) vals)) <> None) ->
  In f fs -> kept_args x f args -> in_s 32 seq ->
  wireof x (TyStruct (args_name f) (fn_args f)) (args_val f args) wv -> (need wv <= fuel)%nat ->
  benign si -> content si = bmsg strictC (fn_name f) 1 seq ++ sb_val wv ++ rest ->
  exists vals text p,
    process (binaryR strict) (binaryW strictW) nop x M cf fuel errtext handle fs h si (MkWt o []) = Ok p /\
    Forall2 same args vals /\ snd (fst (handle h (fn_name f) vals)) = Some text /\
    p_h p = snd (handle h (fn_name f) vals) /\ p_success p = false /\ p_err p = Some (RHandler text) /\
    content (p_in p) = rest /\
    p_out p = MkWt (o ++ bmsg strictW (fn_name f) 3 seq ++
      exc_bytes 6 (lit "Internal error processing " ++ fn_name f ++ lit ": " ++ text)) [].
Proof.
  intros H strict strictC strictW x M cf fuel errtext handle fs f args h si o seq wv rest Ox Hst Fok Nd Fail Hf Ka Hs Wv Nf B X.
  destruct (C44_valid_request_partial H strict strictC strictW x M cf fuel errtext handle fs f args h si o seq wv rest
    Ox Hst Fok Nd) as (vals & p & E & Bp & Cp & Sv & Hh & [He Hsu] & Ho); try assumption.
  { intros vals attrs h' Sv Eh. destruct (Fail vals Sv). rewrite Eh. reflexivity. }
  pose proof (Fail vals Sv) as Fv. destruct (handle h (fn_name f) vals) as [[attrs [text|]] h'] eqn:Eh; [|destruct (Fv eq_refl)].
  cbn [fst snd option_map] in *. exists vals, text, p. rewrite Eh. split; [exact E|]. split; [exact Sv|]. split; [reflexivity|].
  split; [exact Hh|]. split; [destruct (p_success p); [destruct Hsu as [Hsu _]; discriminate (Hsu eq_refl)|reflexivity]|].
  split; [exact He|]. split; [exact Cp|]. rewrite Ho. do 3 f_equal.
  rewrite (exc_bytes_eq INTERNAL_ERROR) by (try discriminate; unfold INTERNAL_ERROR; lia). reflexivity.
Qed.
Print Assumptions C44_failed_text_partial.

(** A function the service does not have (t_go_generator.cc:2246-2258). *)
Theorem C44_unknown_text : forall H strict strictW x M cf fuel errtext
    (handle : H -> bytes -> list any -> (list (Z * any) * option bytes) * H) fs name h si o seq t fl rest,
  strictW = true \/ strict = false ->
  (forall f, In f fs -> fn_name f <> name) ->
  t = 1 \/ t = 2 \/ t = 3 -> Z.of_nat (length name) < 2 ^ 31 -> in_s 32 seq ->
  wf (VStruct fl) -> (need (VStruct fl) <= fuel)%nat ->
  benign si -> content si = bmsg strictW name t seq ++ sb_val (VStruct fl) ++ rest ->
  exists p, process (binaryR strict) (binaryW strictW) nop x M cf fuel errtext handle fs h si (MkWt o []) = Ok p /\
    content (p_in p) = rest /\ p_h p = h /\ p_success p = false /\
    p_err p = Some (RApp (MkExc 1 (lit "Unknown function " ++ name))) /\
    p_out p = MkWt (o ++ bmsg strictW name 3 seq ++ exc_bytes 1 (lit "Unknown function " ++ name)) [].
Proof.
  intros H strict strictW x M cf fuel errtext handle fs name h si o seq t fl rest Hst Hn Ht Ln Hs Hw Nf B X.
  destruct (C44_unknown_method H strict strictW x M cf fuel errtext handle fs name h si o seq t fl rest Hst Hn Ht Ln Hs Hw Nf B X)
    as (p & ex & E & _ & Cp & Hh & Su & He & Hex & Ho).
  subst ex. exists p. repeat split; try assumption. rewrite Ho. do 3 f_equal.
  rewrite (exc_bytes_eq UNKNOWN_METHOD) by (try discriminate; unfold UNKNOWN_METHOD; lia). reflexivity.
Qed.
Print Assumptions C44_unknown_text.

(** add called with a handler that always fails; a call of "mul", which the service does not have. *)
Example C44_text_case :
  let fails := fun (h : Z) (_ : bytes) (_ : list any) => (([] : list (Z * any), Some (lit "disk full")), h + 1) in
  (forall vals, Forall2 same ex_args vals -> snd (fst (fails 7 (lit "add") vals)) <> None) /\
  kept_args ext0 ex_add ex_args /\
  wireof ext0 (TyStruct (args_name ex_add) (fn_args ex_add)) (args_val ex_add ex_args) ex_argsw /\
  (exists p, process (binaryR true) (binaryW true) nop ext0 64 5 40 errtext0 fails ex_fs 7
     [(sb_message_strict (lit "add") 1 9 ++ sb_val ex_argsw ++ [1; 2], None)] (MkWt [] []) = Ok p /\
     p_h p = 8 /\ content (p_in p) = [1; 2] /\
     w_out (p_out p) = [128; 1; 0; 3; 0; 0; 0; 3] ++ lit "add" ++ [0; 0; 0; 9] ++
       [11; 0; 1; 0; 0; 0; 40] ++ lit "Internal error processing add: disk full" ++ [8; 0; 2; 0; 0; 0; 6; 0]) /\
  (exists p, process (binaryR true) (binaryW true) nop ext0 64 5 40 errtext0 fails ex_fs 7
     [(sb_message_strict (lit "mul") 1 9 ++ sb_val ex_argsw ++ [1; 2], None)] (MkWt [] []) = Ok p /\
     p_h p = 7 /\ content (p_in p) = [1; 2] /\
     w_out (p_out p) = [128; 1; 0; 3; 0; 0; 0; 3] ++ lit "mul" ++ [0; 0; 0; 9] ++
       [11; 0; 1; 0; 0; 0; 20] ++ lit "Unknown function mul" ++ [8; 0; 2; 0; 0; 0; 1; 0]).
Proof.
  cbv zeta. split; [intros; discriminate|]. split; [exact ex_args_kept|]. split; [exact ex_args_wire|].
  split; eexists; (split; [vm_compute; reflexivity|]); vm_compute; repeat split.
Qed.

(** ** What a client holds when a call fails *)

(** The zero value of a Go type (The Go Programming Language Specification, "The zero value"): what a variable of that
    type holds before anything is assigned to it.  An enum is an int64 with a String method. *)
Inductive blank : ty -> any -> Prop :=
| bl_bool : blank TyBool (ABool false)
| bl_byte : blank TyByte (AByte 0)
| bl_i16 : blank TyI16 (AInt16 0)
| bl_i32 : blank TyI32 (AInt32 0)
| bl_i64 : blank TyI64 (AInt64 0)
| bl_double : blank TyDouble (AF64 0)
| bl_string : blank TyString (AStr [])
| bl_enum tag n cs s : blank (TyEnum tag n cs) (AEnum tag 0 s)
| bl_binary : blank TyBinary ANil
| bl_list t : blank (TyList t) ANil
| bl_set t : blank (TySet t) ANil
| bl_map k v : blank (TyMap k v) ANil
| bl_struct n ms : blank (TyStruct n ms) ANil.
Lemma zero_blank : forall t, blank t (go_zero t).
Proof. destruct t; cbn [go_zero]; try constructor; unfold mk_enum; constructor. Qed.
Lemma zeros_blank : forall ms, Forall2 (fun m kv => fst kv = m_id m /\ blank (m_ty m) (snd kv)) ms (zero_attrs ms).
Proof. induction ms as [|m ms IH]; cbn; [constructor|constructor; [split; [reflexivity|apply zero_blank]|exact IH]]. Qed.

(** A client that answers a call with a TApplicationException, sent by the server or its own, returns the zero values of
    the named results with it; so does one that cannot read the header of the reply (t_go_generator.cc:1739-1781). *)
Theorem C45_zeros : forall S (R : rproto S) x M cf fuel f seq s attrs s',
  (forall ex, recv_on R x M cf fuel f seq s = Ok ((attrs, Some (RApp ex)), s') ->
     Forall2 (fun m kv => fst kv = m_id m /\ blank (m_ty m) (snd kv)) (result_members f) attrs) /\
  (forall h e, rMessageBegin R s = Ok (h, Some e, s') -> exists zs, recv_on R x M cf fuel f seq s = Ok ((zs, Some (RErr e)), s') /\
     Forall2 (fun m kv => fst kv = m_id m /\ blank (m_ty m) (snd kv)) (result_members f) zs).
Proof.
  intros S R x M cf fuel f seq s attrs s'. pose proof (zeros_blank (result_members f)) as Z. unfold recv_on. cbv zeta. split.
  - intros ex E. assert (Ea : attrs = zero_attrs (result_members f)); [|rewrite Ea; exact Z].
    destruct (rMessageBegin R s) as [[[[[nm t] q] [e|]] s1]| |]; cbn [obind] in E; try discriminate E.
    destruct (t =? EXCEPTION).
    + destruct (app_read R M fuel s1) as [[[ex1 [e|]] s2]| |]; cbn [obind] in E; try discriminate E.
      destruct (rMessageEnd R s2) as [[[e|] s3]| |]; cbn [obind] in E; try discriminate E.
      injection E as E1 _ _. congruence.
    + destruct (negb (seq =? q)); [injection E as E1 _ _; congruence|].
      destruct (gread R x M cf fuel (TyStruct (result_name f) (result_members f)) s1) as [[[v|e] s2]| |]; cbn [obind] in E; try discriminate E;
        (destruct (rMessageEnd R s2) as [[e1 s3]| |]; cbn [obind] in E; discriminate E).
  - intros [[nm t] q] e E. rewrite E. cbn [obind]. eexists. split; [reflexivity|exact Z].
Qed.
Print Assumptions C45_zeros.

(** A function that returns an enum, called 7, and a reply numbered 8: the caller holds the enum's 0. *)
Definition ex_color : func := Fn (lit "color") [] (Some (TyEnum 5 (lit "Color") [(lit "RED", 1)])) [] false.
Example C45_zeros_case : exists s, recv_on (binaryR true) ext0 64 5 40 ex_color 7 [(sb_message_strict (lit "color") 2 8 ++ [0], None)] =
  Ok (([(0, AEnum 5 0 (lit "<UNSET>"))], Some (RApp (MkExc 4 (lit "ping failed: out of sequence response")))), s).
Proof. eexists. vm_compute. reflexivity. Qed.
