(** C81, C82, C83, C84: the command-line client generated for a service. *)
From Coq Require Import ZArith List Bool Lia String.
From Coq Require Import ZifyBool ZifyNat.
From Verif Require Import Base Arith Errors Transport TransportProofs Proto Values WfDec Access Strconv JsonText JsonTextProofs
  F64 TField GoVal Names Compare TList TSet TMap TFieldProofs Gen GenSpec GenProofs GenRound Rpc
  BufIO BufRead BufReadProofs Json JsonSpec JsonWrite JsonRead JsonReadVal JsonForm PropJson PropGen PropJsonGen SimpleGen PropSimpleGen
  Remote.
Import ListNotations.
Local Open Scope list_scope.
Local Notation length := List.length.
Open Scope Z_scope.

Lemma beq_iff : forall a b, beq a b = true <-> a = b.
Proof. intros a b. unfold beq. destruct (list_eq_dec Z.eq_dec a b); split; congruence. Qed.

(** ** C81: whether it compiles *)

(** Go refuses a file that imports a package twice under one name or does not use one it imports. *)
Definition imports_ok (imported used : list bytes) : Prop := NoDup imported /\ forall p, In p imported -> In p used.

Lemma arg_refs_in : forall pkg t a p, In p (arg_refs pkg t a) -> p = lit "strconv" \/ p = lit "flag" \/ p = lit "thrift" \/ p = pkg.
Proof.
  intros pkg t a p H. unfold arg_refs in H. apply in_app_or in H. destruct H as [H|H].
  - destruct t; cbn [In] in H; intuition auto.
  - destruct a; cbn [In] in H; intuition auto.
Qed.
Lemma fn_refs_in : forall pkg f p, In p (fn_refs pkg f) ->
  p = lit "fmt" \/ p = lit "os" \/ p = lit "strconv" \/ p = lit "flag" \/ p = lit "thrift" \/ p = pkg.
Proof.
  intros pkg f p H. unfold fn_refs in H. rewrite !in_app_iff in H. destruct H as [H|[H|H]].
  - cbn [In] in H. intuition auto.
  - apply in_flat_map in H. destruct H as ([m a] & _ & H). apply arg_refs_in in H. tauto.
  - cbn [In] in H. intuition auto.
Qed.

(** No client the generator writes compiles: each imports math and names it nowhere (or, in a package called math, imports two
    packages of that name). *)
Theorem C81_imports_refuted : forall s, ~ imports_ok (imports s) (refs s).
Proof.
  intros s [Nd U]. assert (Hm : sv_pkg s <> lit "math").
  { intros E. unfold imports in Nd. rewrite E in Nd.
    apply (NoDup_remove_2 [lit "flag"; lit "fmt"] [lit "net"; lit "url"; lit "os"; lit "strconv"; lit "thrift"; lit "math"] (lit "math") Nd).
    cbn [app In]. tauto. }
  specialize (U (lit "math")). unfold imports in U.
  assert (H : In (lit "math") (refs s)) by (apply U; cbn [In]; tauto).
  unfold refs in H. rewrite !in_app_iff in H. destruct H as [H|[H|H]].
  - cbn [In] in H. destruct H as [H|[H|[H|[H|[H|[H|[H|[]]]]]]]]; try (vm_compute in H; discriminate). congruence.
  - apply in_flat_map in H. destruct H as (f & _ & H). apply fn_refs_in in H.
    destruct H as [H|[H|[H|[H|[H|H]]]]]; try (vm_compute in H; discriminate). congruence.
  - cbn [In] in H. destruct H as [H|[H|[]]]; vm_compute in H; discriminate.
Qed.
Print Assumptions C81_imports_refuted.

(** Types whose values the client parses from decimal text. *)
Inductive numeral : ty -> Prop :=
| nu_byte : numeral TyByte | nu_i16 : numeral TyI16 | nu_i32 : numeral TyI32 | nu_i64 : numeral TyI64
| nu_double : numeral TyDouble | nu_enum a n cs : numeral (TyEnum a n cs).
Definition aliases_ok (s : service) : Prop := forall f, In f (sv_own s) -> length (sf_alias f) = length (fn_args (sf_fn f)).
Lemma combine_member : forall (l : list Gen.member) (l' : list (option bytes)) m, length l' = length l -> In m l -> exists a, In (m, a) (combine l l').
Proof.
  induction l as [|x l IH]; intros [|a l'] m L H; try (destruct H; fail); cbn in L; try lia.
  destruct H as [->|H]; [exists a; now left|]. destruct (IH l' m) as [a' Ha]; [lia|assumption|]. exists a'. now right.
Qed.
(** Without that import, the other imports are all used exactly if some argument of some function is a number or an enum;
    otherwise strconv is not. *)
Theorem C81_other_imports : forall s, aliases_ok s -> sv_pkg s <> lit "strconv" ->
  (forall p, In p (imports s) -> p <> lit "math" -> In p (refs s)) <->
  exists f m, In f (sv_own s) /\ In m (fn_args (sf_fn f)) /\ numeral (m_ty m).
Proof.
  intros s Al Hp. split.
  - intros H. specialize (H (lit "strconv")). assert (R : In (lit "strconv") (refs s)).
    { apply H; [unfold imports; cbn [In]; tauto|]. intros E; vm_compute in E; discriminate. }
    unfold refs in R. rewrite !in_app_iff in R. destruct R as [R|[R|R]].
    + cbn [In] in R. destruct R as [R|[R|[R|[R|[R|[R|[R|[]]]]]]]]; try (vm_compute in R; discriminate). congruence.
    + apply in_flat_map in R. destruct R as (f & Hf & R). unfold fn_refs in R. rewrite !in_app_iff in R.
      destruct R as [R|[R|R]]; [cbn [In] in R; destruct R as [R|[R|[R|[]]]]; vm_compute in R; discriminate| |
                                cbn [In] in R; destruct R as [R|[]]; vm_compute in R; discriminate].
      apply in_flat_map in R. destruct R as ([m a] & Hm & R). apply in_combine_l in Hm. exists f, m. split; [assumption|]. split; [assumption|].
      unfold arg_refs in R. apply in_app_or in R.
      assert (R' : In (lit "strconv") match a with Some _ => [sv_pkg s] | None => [] end -> False).
      { destruct a; cbn [In]; intros X; [destruct X as [X|[]]; congruence|exact X]. }
      destruct R as [R|R]; [|destruct (R' R)].
      destruct (m_ty m); try constructor; exfalso; cbn [In] in R;
        repeat (destruct R as [R|R]; [try (vm_compute in R; discriminate); congruence|]); exact R.
    + cbn [In] in R. destruct R as [R|[R|[]]]; vm_compute in R; discriminate.
  - intros (f & m & Hf & Hm & Nu) p H Np.
    assert (Hst : In (lit "strconv") (refs s)).
    { unfold refs. rewrite !in_app_iff. right. left. apply in_flat_map. exists f. split; [assumption|].
      unfold fn_refs. rewrite !in_app_iff. right. left. apply in_flat_map.
      destruct (combine_member _ (sf_alias f) m (Al f Hf) Hm) as [a Ha]. exists (m, a). split; [assumption|].
      unfold arg_refs. apply in_or_app. left. destruct Nu; cbn [In]; tauto. }
    unfold imports in H. cbn [In] in H.
    destruct H as [<-|[<-|[<-|[<-|[<-|[<-|[<-|[<-|[<-|[]]]]]]]]]]; try congruence;
      unfold refs; rewrite in_app_iff; left; cbn [In]; tauto.
Qed.
Print Assumptions C81_other_imports.

(** Which arguments are handed to the method of the client with the type it takes. *)
Inductive passes : ty -> option bytes -> Prop :=
| pa_plain t : t <> TyI16 -> t <> TyBinary -> passes t None
| pa_named t a : (forall n ms, t <> TyStruct n ms) -> passes t (Some a).
Theorem C81_arguments : forall t alias, arg_typed t alias = true <-> passes t alias.
Proof.
  assert (R : forall n, beq n n = true) by (intros; now apply beq_iff).
  intros t [a|]; split; intros H.
  - constructor. intros n ms ->. discriminate.
  - inversion H as [|? ? N]; subst. unfold arg_typed. destruct t; try reflexivity; cbn; rewrite ?R; try reflexivity. destruct (N name ms eq_refl).
  - constructor; intros ->; discriminate.
  - inversion H as [? N1 N2|]; subst. unfold arg_typed. destruct t; try congruence; try reflexivity; cbn; apply R.
Qed.
Print Assumptions C81_arguments.
(** The variable that is handed over has the type of the parameter itself, without a conversion, in these cases. *)
Theorem C81_same_type : forall t alias, argvalue_type t alias = Some (param_type t alias) <->
  match alias, t with
  | None, _ => t <> TyI16 /\ t <> TyBinary
  | Some _, (TyEnum _ _ _ | TyList _ | TySet _ | TyMap _ _) => True
  | Some _, _ => False
  end.
Proof.
  intros t [a|]; destruct t; cbn; split; intro H; try exact I; try reflexivity; try contradiction; try discriminate H;
    try (split; discriminate); destruct H as [H1 H2]; congruence.
Qed.
Print Assumptions C81_same_type.
(** So an i16 or a binary cannot be an argument, nor a typedef of a struct. *)
Theorem C81_argument_types_refuted : exists t alias, arg_typed t alias = false /\
  (t = TyI16 \/ t = TyBinary) /\ alias = None.
Proof. exists TyI16, None. split; [reflexivity|auto]. Qed.
Print Assumptions C81_argument_types_refuted.

Definition fn81 : sfunc := MkSfunc (Fn (lit "add") [Mem 1 (lit "a") false None TyI64; Mem 2 (lit "b") false None TyI16] (Some TyI64) [] false)
  [None; Some (lit "short")].
Definition sv81 : service := MkService (lit "calc") (lit "Calc") [fn81] [].
Example C81_ex : aliases_ok sv81 /\ sv_pkg sv81 <> lit "strconv" /\
  (exists f m, In f (sv_own sv81) /\ In m (fn_args (sf_fn f)) /\ numeral (m_ty m)) /\
  passes TyI64 None /\ passes TyI16 (Some (lit "short")) /\ arg_typed TyBinary None = false.
Proof.
  split; [intros f [<-|[]]; reflexivity|]. split; [intros E; vm_compute in E; discriminate|].
  split; [exists fn81, (Mem 1 (lit "a") false None TyI64); split; [now left|]; split; [now left|constructor]|].
  split; [constructor; discriminate|]. split; [constructor; discriminate|reflexivity].
Qed.

(** ** C82: the arguments *)

(** What a word of the command line says, for an argument of this type: a decimal number in the range of the type (of a byte,
    signed or unsigned), true or false, a number ParseFloat takes, text, or a value as TSimpleJSON writes it (C79), with
    anything behind that cannot be taken for more of it. *)
Inductive says (J : jenv) (x : ext) (cf fuel : nat) : ty -> bytes -> any -> Prop :=
| sa_true : says J x cf fuel TyBool (lit "true") (ABool true)
| sa_false : says J x cf fuel TyBool (lit "false") (ABool false)
| sa_byte s z : decimal s z -> in_u 8 z \/ in_s 8 z -> says J x cf fuel TyByte s (AByte (z mod 256))
| sa_i16 s z : decimal s z -> in_s 16 z -> says J x cf fuel TyI16 s (AInt16 z)
| sa_i32 s z : decimal s z -> in_s 32 z -> says J x cf fuel TyI32 s (AInt32 z)
| sa_i64 s z : decimal s z -> in_s 64 z -> says J x cf fuel TyI64 s (AInt64 z)
| sa_enum tag n cs s z : decimal s z -> in_s 32 z -> says J x cf fuel (TyEnum tag n cs) s (mk_enum tag n cs z)
| sa_double s d : x_parse_float x s = (d, None) -> says J x cf fuel TyDouble s (AF64 d)
| sa_string s : says J x cf fuel TyString s (AStr s)
| sa_binary s : says J x cf fuel TyBinary s (ABytes s)
| sa_other t w v rest :
    type_to_enum t = STRUCT \/ IsContainer (type_to_enum t) = true ->
    schema_ok t -> wf w -> splain J t w -> reads x cf t (canon w) v -> follows w rest ->
    (need w <= fuel)%nat -> (length (stext J t w) <= 4096)%nat ->
    says J x cf fuel t (stext J t w ++ rest) v.

(** Whether the argument at this position is one the client can pass on: its number is its position, if it is a container. *)
Definition in_place (i : nat) (m : Gen.member) : Prop :=
  IsContainer (type_to_enum (m_ty m)) = true -> m_id m = Z.of_nat i + 1.

Lemma read_text : forall J x M cf fuel t w v rest, type_to_enum t = STRUCT \/ IsContainer (type_to_enum t) = true ->
  schema_ok t -> wf w -> splain J t w -> reads x cf t (canon w) v -> follows w rest ->
  (need w <= fuel)%nat -> (length (stext J t w) <= 4096)%nat ->
  exists b, gread (simpleR J) x M cf fuel t (simple_r [(stext J t w ++ rest, None)]) = Ok (inl v, b).
Proof.
  intros J x M cf fuel t w v rest Ht So W P R F N L.
  destruct (C79_read_partial J x M cf t w v fuel [(stext J t w ++ rest, None)] rest W P R So N) as (b & G & _); [|assumption|eauto].
  assert (Hn : exists c u, stext J t w = c :: u /\ (c = 91 \/ c = 123)).
  { clear - R Ht. remember (canon w) as cw eqn:Ew. destruct R; cbn in Ht; try (destruct Ht; discriminate);
      destruct w; cbn [canon] in Ew; try discriminate; cbn [stext app]; eexists _, _; split; try reflexivity; auto. }
  destruct Hn as (c & u & E & Hc). rewrite E in *. cbn [app].
  split; [constructor; [split; [discriminate|reflexivity]|constructor]|].
  split; [cbn; f_equal; apply app_nil_r|]. split; [exact L|]. cbn [ends]. constructor; [destruct Hc as [-> | ->]; reflexivity|].
  constructor; [|constructor]. apply tpos_ge. pose proof (app_length u rest). cbn [length] in *. unfold bytes in *. lia.
Qed.

(** A word is passed on as what it says.  Missing: i16 arguments above 255 or negative, containers whose number is not their
    position; see the refutations. *)
Theorem C82_says_partial : forall J x M cf fuel f i m s v,
  NoDup (map m_id (fn_args f)) -> In m (fn_args f) -> in_place i m ->
  (m_ty m = TyI16 -> exists z, decimal s z /\ in_u 8 z) ->
  says J x cf fuel (m_ty m) s v -> arg_value J x M cf fuel f i m s = Ok (Some v).
Proof.
  intros J x M cf fuel f i m s v Nd Hm Ip H16 Sy.
  assert (P : forall z, decimal s z -> in_s 64 z -> ParseInt s 64 = (z, None)).
  { intros z D R. apply ParseInt_spec; [lia|auto]. }
  remember (m_ty m) as t eqn:Et. unfold arg_value. rewrite <- Et.
  destruct Sy as [| |s z D R|s z D R|s z D R|s z D R|tag n cs s z D R|s d D| | |t w v rest Ht So W Pl R F N L]; try reflexivity.
  - rewrite (P z D); [reflexivity|]. unfold in_u, in_s in *. lia.
  - destruct (H16 eq_refl) as (z' & D' & R'). assert (z' = z).
    { assert (X : in_s 64 z' /\ in_s 64 z) by (unfold in_u, in_s in *; lia). pose proof (P z' D' (proj1 X)). pose proof (P z D (proj2 X)). congruence. }
    subst z'. rewrite (P z D) by (unfold in_s in *; lia). unfold wrapu. rewrite Z.mod_small by (unfold in_u in R'; lia). reflexivity.
  - rewrite (P z D) by (unfold in_s in *; lia). rewrite Arith.wraps_id by (auto; lia). reflexivity.
  - now rewrite (P z D).
  - rewrite (P z D) by (unfold in_s in *; lia). reflexivity.
  - now rewrite D.
  - destruct (read_text J x M cf fuel t w v rest Ht So W Pl R F N L) as [b G].
    assert (C : IsContainer (type_to_enum t) = true -> (match find (fun a => m_id a =? Z.of_nat i + 1) (fn_args f) with
        | None => Panic
        | Some a =>
          '(r, _) <- gread (simpleR J) x M cf fuel (m_ty a) (simple_r [(stext J t w ++ rest, None)]) ;;
          Ok (match r with
              | inl v => Some (attribute (attr_set (init_attrs (fn_args f)) (m_id a) v) (m_id m))
              | inr _ => None
              end)
        end) = Ok (Some v)).
    { intros C. subst t. specialize (Ip C). rewrite <- Ip. pose proof (mem_of_in (fn_args f) m Nd Hm) as E. unfold mem_of in E. rewrite E, G.
      cbn [obind]. rewrite attr_set_get; [reflexivity|]. unfold init_attrs. rewrite map_map. cbn [fst]. now apply in_map. }
    destruct t; try (destruct Ht; discriminate); try (apply C; reflexivity). exact (f_equal (fun o => obind o (fun q : (any + err) * jr => let (r, _) := q in Ok match r with inl v0 => Some v0 | inr _ => None end)) G).
Qed.
Print Assumptions C82_says_partial.

(** Words that are no numbers, or none that fit an int, are refused, not passed on as something else. *)
Theorem C82_refused : forall J x M cf fuel f i m s, numeral (m_ty m) -> m_ty m <> TyDouble ->
  (forall z, decimal s z -> ~ in_s 64 z) <-> arg_value J x M cf fuel f i m s = Ok None.
Proof.
  intros J x M cf fuel f i m s Nu Nd. split.
  - intros H. assert (E : exists z e, ParseInt s 64 = (z, Some e)).
    { destruct (ParseInt s 64) as [z [e|]] eqn:E; [eauto|]. apply ParseInt_spec in E; [|lia]. destruct (H z); tauto. }
    destruct E as (z & e & E). unfold arg_value. destruct Nu; try congruence; rewrite E; reflexivity.
  - intros H z D R. assert (E : ParseInt s 64 = (z, None)) by (apply ParseInt_spec; [lia|auto]).
    unfold arg_value in H. destruct Nu; try congruence; rewrite E in H; discriminate.
Qed.
Print Assumptions C82_refused.
(** So are words strconv.ParseFloat gives an error for, where a double is wanted. *)
Theorem C82_refused_double : forall J x M cf fuel f i m s, m_ty m = TyDouble ->
  (exists d e, x_parse_float x s = (d, Some e)) <-> arg_value J x M cf fuel f i m s = Ok None.
Proof.
  intros J x M cf fuel f i m s E. unfold arg_value. rewrite E. split.
  - intros (d & e & ->). reflexivity.
  - destruct (x_parse_float x s) as [d [e|]]; [eauto|discriminate].
Qed.
Print Assumptions C82_refused_double.
(** A struct or container the text of which cannot be read is refused. *)
Theorem C82_unreadable : forall J x M cf fuel f i m s e st, NoDup (map m_id (fn_args f)) -> In m (fn_args f) -> in_place i m ->
  type_to_enum (m_ty m) = STRUCT \/ IsContainer (type_to_enum (m_ty m)) = true ->
  gread (simpleR J) x M cf fuel (m_ty m) (simple_r [(s, None)]) = Ok (inr e, st) ->
  arg_value J x M cf fuel f i m s = Ok None.
Proof.
  intros J x M cf fuel f i m s e st Nd Hm Ip Ht G. unfold arg_value.
  assert (C : IsContainer (type_to_enum (m_ty m)) = true -> find (fun a => m_id a =? Z.of_nat i + 1) (fn_args f) = Some m).
  { intros C. rewrite <- (Ip C). exact (mem_of_in (fn_args f) m Nd Hm). }
  destruct (m_ty m) eqn:E; try (destruct Ht; discriminate); try (rewrite C by reflexivity; rewrite E); rewrite G; reflexivity.
Qed.
Print Assumptions C82_unreadable.

(** What is passed on that the word does not say: a number is cut to the bits of the type instead of being refused, *)
Theorem C82_range_refuted : forall J x M cf fuel f i m s z, decimal s z -> in_s 64 z ->
  (m_ty m = TyI32 -> ~ in_s 32 z -> exists y, y <> z /\ arg_value J x M cf fuel f i m s = Ok (Some (AInt32 y))) /\
  (m_ty m = TyByte -> ~ in_u 8 z -> exists y, y <> z /\ arg_value J x M cf fuel f i m s = Ok (Some (AByte y))).
Proof.
  intros J x M cf fuel f i m s z D R. assert (E : ParseInt s 64 = (z, None)) by (apply ParseInt_spec; [lia|auto]).
  split; intros Et N; unfold arg_value; rewrite Et, E.
  - exists (wraps 32 z). split; [|reflexivity]. intros W. apply N. rewrite <- W. apply Arith.wraps_range; lia.
  - exists (wrapu 8 z). split; [|reflexivity]. intros W. apply N. rewrite <- W. apply Z.mod_pos_bound; reflexivity.
Qed.
Print Assumptions C82_range_refuted.
(** an i16 to eight, so that no negative one and none above 255 can be passed, *)
Theorem C82_i16_refuted : forall J x M cf fuel f i m s z, decimal s z -> in_s 16 z -> ~ in_u 8 z -> m_ty m = TyI16 ->
  exists y, y <> z /\ arg_value J x M cf fuel f i m s = Ok (Some (AInt16 y)).
Proof.
  intros J x M cf fuel f i m s z D R N Et. assert (E : ParseInt s 64 = (z, None)).
  { apply ParseInt_spec; [lia|]. split; [assumption|]. unfold in_s in *. lia. }
  unfold arg_value. rewrite Et, E. exists (wrapu 8 z). split; [|reflexivity]. intros W. apply N. rewrite <- W. apply Z.mod_pos_bound; reflexivity.
Qed.
Print Assumptions C82_i16_refuted.
(** a word that is neither true nor false is false, *)
Theorem C82_bool_refuted : forall J x M cf fuel f i m s, m_ty m = TyBool -> s <> lit "true" ->
  arg_value J x M cf fuel f i m s = Ok (Some (ABool false)).
Proof.
  intros J x M cf fuel f i m s Et N. unfold arg_value. rewrite Et. destruct (beq s (lit "true")) eqn:E; [apply beq_iff in E; congruence|reflexivity].
Qed.
Print Assumptions C82_bool_refuted.
(** and a container whose number is not its position is replaced by what the argument struct holds to begin with. *)
Theorem C82_position_refuted : forall J x M cf fuel f i m a s v st,
  IsContainer (type_to_enum (m_ty m)) = true -> In a (fn_args f) -> NoDup (map m_id (fn_args f)) ->
  m_id a = Z.of_nat i + 1 -> m_id m <> Z.of_nat i + 1 ->
  gread (simpleR J) x M cf fuel (m_ty a) (simple_r [(s, None)]) = Ok (inl v, st) ->
  arg_value J x M cf fuel f i m s = Ok (Some (attribute (init_attrs (fn_args f)) (m_id m))).
Proof.
  intros J x M cf fuel f i m a s v st C Ha Nd Ea Em G. unfold arg_value.
  pose proof (mem_of_in (fn_args f) a Nd Ha) as E. unfold mem_of in E. rewrite Ea in E. rewrite E, G, Ea. cbn [obind].
  rewrite attr_set_other by assumption. destruct (m_ty m); try discriminate; reflexivity.
Qed.
Print Assumptions C82_position_refuted.

(** ** C83: what is called *)

(** The value main gives a variable: whether the client goes by HTTP, and the host.  None: the URL is none. *)
Definition target (O : outside) (fl : flags) (host : bytes) (http : bool) : Prop :=
  match fl_url fl with
  | [] => host = fl_host fl /\ http = fl_http fl /\ (http = true -> o_url O (lit "http://" ++ address host (fl_port fl)) <> None)
  | u => exists scheme, o_url O u = Some (scheme, host) /\ (http = true <-> scheme = [] \/ scheme = lit "http")
  end.
Definition reached (O : outside) (fl : flags) (t : trans) : Prop :=
  exists host http, target O fl host http /\
    (http = true /\ o_get O [] = true /\ t = THttpGet [] \/
     http = false /\ o_resolve O (address host (fl_port fl)) = true /\
       t = (if fl_framed fl then TFramed (TSocket (address host (fl_port fl))) else TSocket (address host (fl_port fl)))).
Lemma beq_nil : forall a : bytes, beq a [] = true <-> a = [].
Proof. intros a. apply beq_iff. Qed.

(** All main does, by cases. *)
Lemma main_cases : forall O J x M cf fuel s fl evs, main O J x M cf fuel s fl = Ok evs ->
  evs = usage \/ evs = Complains :: usage \/ evs = [Complains; Exits 1] \/
  exists cmd texts t w evs', fl_args fl = cmd :: texts /\ fl_help fl = false /\ reached O fl t /\
    protocol_of (fl_protocol fl) = Some w /\ o_open O t = true /\ evs = Opens t :: evs' /\
    command J x M cf fuel s t w cmd texts = Ok evs'.
Proof.
  intros O J x M cf fuel s fl evs H. unfold main in H.
  destruct (fl_args fl) as [|cmd texts] eqn:Ea; [left; congruence|].
  destruct (fl_help fl) eqn:Eh; [left; congruence|].
  match type of H with (match ?X with _ => _ end) = _ => destruct X as [[host http]|] eqn:Eu end; [|right; left; congruence].
  assert (T : target O fl host http).
  { unfold target. destruct (fl_url fl) as [|c u].
    - destruct (fl_http fl) eqn:Ef.
      + destruct (o_url O (lit "http://" ++ address (fl_host fl) (fl_port fl))) eqn:E; [|discriminate]. injection Eu as <- <-.
        split; [reflexivity|]. split; [reflexivity|]. intros _ N. rewrite E in N. discriminate.
      + injection Eu as <- <-. split; [reflexivity|]. split; [reflexivity|discriminate].
    - destruct (o_url O (c :: u)) as [[scheme h]|]; [|discriminate]. injection Eu as <- <-. exists scheme. split; [reflexivity|].
      rewrite orb_true_iff, !beq_iff. reflexivity. }
  match type of H with (match ?X with _ => _ end) = _ => destruct X as [t|] eqn:Et end; [|right; right; left; congruence].
  assert (R : reached O fl t).
  { exists host, http. split; [assumption|]. destruct http.
    - left. destruct (o_get O []); [|discriminate]. injection Et as <-. auto.
    - right. destruct (o_resolve O (address host (fl_port fl))); [|discriminate]. injection Et as <-. cbv zeta. now destruct (fl_framed fl). }
  destruct (protocol_of (fl_protocol fl)) as [w|] eqn:Ep; [|right; left; congruence].
  destruct (o_open O t) eqn:Eo; [|right; right; left; congruence].
  destruct (command J x M cf fuel s t w cmd texts) as [evs'| |] eqn:Ec; try discriminate. injection H as <-.
  right; right; right. exists cmd, texts, t, w, evs'. repeat (split; [assumption || reflexivity|]). assumption.
Qed.
(** What the switch over the command does, by cases. *)
Lemma command_cases : forall J x M cf fuel s t w cmd texts evs, command J x M cf fuel s t w cmd texts = Ok evs ->
  evs = usage \/ evs = Complains :: usage \/ evs = [Complains; Exits 0] \/
  exists f vs, In f (sv_own s) /\ fn_name (sf_fn f) = cmd /\ length texts = length (fn_args (sf_fn f)) /\
    arg_values J x M cf fuel (sf_fn f) 0 (fn_args (sf_fn f)) texts = Ok (Some vs) /\
    evs = [Calls t w cmd vs; Exits 0].
Proof.
  intros J x M cf fuel s t w cmd texts evs H. unfold command in H.
  destruct (find _ (sv_own s)) as [f|] eqn:Ef.
  - apply find_some in Ef. destruct Ef as [Hf E]. apply beq_iff in E.
    destruct (Nat.eqb_spec (length texts) (length (fn_args (sf_fn f)))) as [L|L]; [|right; left; congruence].
    destruct (arg_values _ _ _ _ _ _ _ _ _) as [[vs|]| |] eqn:Ev; try discriminate; cbn [obind] in H; injection H as <-; [|now left].
    right; right; right. exists f, vs. rewrite <- E. auto.
  - destruct cmd; injection H as <-; [now left|]. right; right; now left.
Qed.

(** A call is made only of a function of the service, with as many arguments as it has, each got from its word, over the
    transport and protocol asked for; there is one call at most. *)
Theorem C83_called : forall O J x M cf fuel s fl evs t w name vs,
  main O J x M cf fuel s fl = Ok evs -> In (Calls t w name vs) evs ->
  evs = [Opens t; Calls t w name vs; Exits 0] /\ reached O fl t /\ protocol_of (fl_protocol fl) = Some w /\ o_open O t = true /\
  exists f texts, In f (sv_own s) /\ fn_name (sf_fn f) = name /\ fl_args fl = name :: texts /\
    length texts = length (fn_args (sf_fn f)) /\ length vs = length texts /\
    forall i m text v, nth_error (fn_args (sf_fn f)) i = Some m -> nth_error texts i = Some text -> nth_error vs i = Some v ->
      arg_value J x M cf fuel (sf_fn f) i m text = Ok (Some v).
Proof.
  assert (AV : forall J x M cf fuel f ms i texts vs, arg_values J x M cf fuel f i ms texts = Ok (Some vs) -> length texts = length ms ->
    length vs = length texts /\ forall k m text v, nth_error ms k = Some m -> nth_error texts k = Some text -> nth_error vs k = Some v ->
      arg_value J x M cf fuel f (i + k) m text = Ok (Some v)).
  { intros J x M cf fuel f. induction ms as [|m ms IH]; intros i texts vs H L; cbn [arg_values] in H.
    - injection H as <-. destruct texts; [|discriminate]. split; [reflexivity|]. intros [|k]; discriminate.
    - destruct texts as [|text texts]; [discriminate|].
      destruct (arg_value J x M cf fuel f i m text) as [[v|]| |] eqn:Ev; cbn [obind] in H; try discriminate.
      destruct (arg_values J x M cf fuel f (S i) ms (tl (text :: texts))) as [[vs'|]| |] eqn:Es; cbn [obind] in H; try discriminate.
      injection H as <-. cbn [tl] in Es. destruct (IH _ _ _ Es ltac:(cbn in L; lia)) as [L' A]. split; [cbn; lia|].
      intros [|k] m' text' v' H1 H2 H3; cbn [nth_error] in *.
      + injection H1 as ->. injection H2 as ->. injection H3 as ->. now rewrite Nat.add_0_r.
      + rewrite Nat.add_succ_r. eapply A; eassumption. }
  intros O J x M cf fuel s fl evs t w name vs H Hin.
  destruct (main_cases _ _ _ _ _ _ _ _ _ H) as [->|[->|[->|(cmd & texts & t' & w' & evs' & Ea & Eh & R & Ep & Eo & -> & Ec)]]];
    try (exfalso; cbn [In usage] in Hin; unfold usage in Hin; cbn [In] in Hin; intuition discriminate).
  destruct Hin as [Hin|Hin]; [discriminate|].
  destruct (command_cases _ _ _ _ _ _ _ _ _ _ _ Ec) as [->|[->|[->|(f & us & Hf & En & L & Ev & ->)]]];
    try (exfalso; unfold usage in Hin; cbn [In] in Hin; intuition discriminate).
  destruct Hin as [Hin|[Hin|[]]]; [|discriminate]. injection Hin as -> -> -> ->.
  split; [reflexivity|]. split; [assumption|]. split; [assumption|]. split; [assumption|].
  destruct (AV _ _ _ _ _ _ _ _ _ _ Ev L) as [L' A]. exists f, texts. repeat (split; [assumption|]). exact A.
Qed.
Print Assumptions C83_called.

(** main as far as the switch over the command. *)
Lemma main_reaches : forall O J x M cf fuel s fl t w cmd texts,
  fl_help fl = false -> reached O fl t -> (protocol_of (fl_protocol fl) = Some w -> o_open O t = true -> fl_args fl = cmd :: texts ->
  main O J x M cf fuel s fl = (evs <- command J x M cf fuel s t w cmd texts ;; Ok (Opens t :: evs))) /\
  (protocol_of (fl_protocol fl) = None -> fl_args fl = cmd :: texts -> main O J x M cf fuel s fl = Ok (Complains :: usage)).
Proof.
  intros O J x M cf fuel s fl t w cmd texts Eh (host & http & T & R).
  assert (G : fl_args fl = cmd :: texts -> main O J x M cf fuel s fl =
    match protocol_of (fl_protocol fl) with
    | None => Ok (Complains :: usage)
    | Some w => if o_open O t then evs <- command J x M cf fuel s t w cmd texts ;; Ok (Opens t :: evs) else Ok [Complains; Exits 1]
    end).
  { intros Ea. unfold main. rewrite Ea, Eh.
    match goal with |- (match ?X with _ => _ end) = _ => assert (EX : X = Some (host, http)) end.
    { unfold target in T. destruct (fl_url fl) as [|c u].
      - destruct T as (-> & -> & T). destruct (fl_http fl); [|reflexivity].
        destruct (o_url O (lit "http://" ++ address (fl_host fl) (fl_port fl))); [reflexivity|]. now destruct (T eq_refl).
      - destruct T as (scheme & -> & T). f_equal. f_equal. apply eq_true_iff_eq. rewrite orb_true_iff, !beq_iff. symmetry. exact T. }
    rewrite EX. cbv iota beta.
    match goal with |- (match ?X with _ => _ end) = _ => assert (ET : X = Some t) end.
    { destruct R as [(-> & -> & ->)|(-> & -> & ->)]; [reflexivity|]. cbv zeta. now destruct (fl_framed fl). }
    now rewrite ET. }
  split; [intros Ep Eo Ea|intros Ep Ea]; rewrite (G Ea), Ep; [now rewrite Eo|reflexivity].
Qed.
Lemma find_own : forall l f, In f l -> NoDup (map (fun g => fn_name (sf_fn g)) l) ->
  find (fun g => beq (fn_name (sf_fn f)) (fn_name (sf_fn g))) l = Some f.
Proof.
  induction l as [|g l IH]; intros f Hf Nd; [destruct Hf|]. cbn [find map] in *. inversion Nd as [|? ? N Nd']; subst.
  destruct Hf as [->|Hf]; [now rewrite (proj2 (beq_iff _ _) eq_refl)|].
  destruct (beq (fn_name (sf_fn f)) (fn_name (sf_fn g))) eqn:E; [|auto]. apply beq_iff in E. destruct N. rewrite <- E.
  now apply (in_map (fun h => fn_name (sf_fn h))).
Qed.

(** If everything outside works, a call of a function of the service with words that say its arguments is made. *)
Theorem C83_calls : forall O J x M cf fuel s fl t w f texts vs,
  fl_help fl = false -> reached O fl t -> protocol_of (fl_protocol fl) = Some w -> o_open O t = true ->
  In f (sv_own s) -> NoDup (map (fun g => fn_name (sf_fn g)) (sv_own s)) -> fl_args fl = fn_name (sf_fn f) :: texts ->
  length texts = length (fn_args (sf_fn f)) -> length vs = length texts ->
  (forall i m text v, nth_error (fn_args (sf_fn f)) i = Some m -> nth_error texts i = Some text -> nth_error vs i = Some v ->
     arg_value J x M cf fuel (sf_fn f) i m text = Ok (Some v)) ->
  main O J x M cf fuel s fl = Ok [Opens t; Calls t w (fn_name (sf_fn f)) vs; Exits 0].
Proof.
  assert (AV : forall J x M cf fuel f ms i texts vs, length texts = length ms -> length vs = length texts ->
    (forall k m text v, nth_error ms k = Some m -> nth_error texts k = Some text -> nth_error vs k = Some v ->
      arg_value J x M cf fuel f (i + k) m text = Ok (Some v)) -> arg_values J x M cf fuel f i ms texts = Ok (Some vs)).
  { intros J x M cf fuel f. induction ms as [|m ms IH]; intros i texts vs L L' A; destruct texts as [|text texts]; try discriminate;
      destruct vs as [|v vs]; try discriminate; [reflexivity|]. cbn [arg_values tl].
    pose proof (A 0%nat m text v eq_refl eq_refl eq_refl) as A0. rewrite Nat.add_0_r in A0. rewrite A0. cbn [obind].
    rewrite (IH (S i) texts vs); [reflexivity|cbn in L; lia|cbn in L'; lia|].
    intros k m' text' v' H1 H2 H3. specialize (A (S k) m' text' v' H1 H2 H3). now rewrite Nat.add_succ_r in A. }
  intros O J x M cf fuel s fl t w f texts vs Eh R Ep Eo Hf Nd Ea L L' A.
  destruct (main_reaches O J x M cf fuel s fl t w (fn_name (sf_fn f)) texts Eh R) as [E _]. rewrite (E Ep Eo Ea).
  unfold command. rewrite (find_own (sv_own s) f Hf Nd), L, Nat.eqb_refl.
  rewrite (AV J x M cf fuel (sf_fn f) _ 0%nat texts vs L L' A). reflexivity.
Qed.
Print Assumptions C83_calls.

(** How the process ends: always by an exit, with 1 only if the transport could not be made or opened and with 0 in every other
    case in which nothing was called. *)
Theorem C83_status : forall O J x M cf fuel s fl evs, main O J x M cf fuel s fl = Ok evs ->
  exists front status, evs = front ++ [Exits status] /\ (forall e, In e front -> forall z, e <> Exits z) /\
    (status = 0 \/ status = 1 /\ front = [Complains]).
Proof.
  assert (S : forall front status, (forall e, In e front -> forall z, e <> Exits z) -> status = 0 \/ status = 1 /\ front = [Complains] ->
    exists front' status', front ++ [Exits status] = front' ++ [Exits status'] /\ (forall e, In e front' -> forall z, e <> Exits z) /\
    (status' = 0 \/ status' = 1 /\ front' = [Complains])) by eauto.
  assert (N : forall l, Forall (fun e => match e with Exits _ => False | _ => True end) l -> forall e, In e l -> forall z, e <> Exits z).
  { intros l F e He z ->. exact (proj1 (Forall_forall _ _) F _ He). }
  intros O J x M cf fuel s fl evs H.
  destruct (main_cases _ _ _ _ _ _ _ _ _ H) as [->|[->|[->|(cmd & texts & t & w & evs' & Ea & Eh & R & Ep & Eo & -> & Ec)]]].
  - apply (S [ShowsUsage] 0); [apply N; repeat constructor|auto].
  - apply (S [Complains; ShowsUsage] 0); [apply N; repeat constructor|auto].
  - apply (S [Complains] 1); [apply N; repeat constructor|auto].
  - destruct (command_cases _ _ _ _ _ _ _ _ _ _ _ Ec) as [->|[->|[->|(f & us & Hf & En & L & Ev & ->)]]].
    + apply (S [Opens t; ShowsUsage] 0); [apply N; repeat constructor|auto].
    + apply (S [Opens t; Complains; ShowsUsage] 0); [apply N; repeat constructor|auto].
    + apply (S [Opens t; Complains] 0); [apply N; repeat constructor|auto].
    + apply (S [Opens t; Calls t w cmd us] 0); [apply N; repeat constructor|auto].
Qed.
Print Assumptions C83_status.

(** So a script cannot tell: with a name that is no function of the service, or one of a service it extends, nothing is called and
    the status is 0, *)
Theorem C83_unknown_refuted : forall O J x M cf fuel s fl t w cmd texts,
  fl_help fl = false -> reached O fl t -> protocol_of (fl_protocol fl) = Some w -> o_open O t = true ->
  fl_args fl = cmd :: texts -> cmd <> [] -> (forall f, In f (sv_own s) -> fn_name (sf_fn f) <> cmd) ->
  main O J x M cf fuel s fl = Ok [Opens t; Complains; Exits 0].
Proof.
  intros O J x M cf fuel s fl t w cmd texts Eh R Ep Eo Ea Nc N.
  destruct (main_reaches O J x M cf fuel s fl t w cmd texts Eh R) as [E _]. rewrite (E Ep Eo Ea). unfold command.
  destruct (find _ (sv_own s)) as [f|] eqn:Ef.
  - apply find_some in Ef. destruct Ef as [Hf E']. apply beq_iff in E'. destruct (N f Hf). now symmetry.
  - destruct cmd; [congruence|reflexivity].
Qed.
Print Assumptions C83_unknown_refuted.
(** and so with a wrong number of arguments, *)
Theorem C83_count_refuted : forall O J x M cf fuel s fl t w f texts,
  fl_help fl = false -> reached O fl t -> protocol_of (fl_protocol fl) = Some w -> o_open O t = true ->
  In f (sv_own s) -> NoDup (map (fun g => fn_name (sf_fn g)) (sv_own s)) -> fl_args fl = fn_name (sf_fn f) :: texts ->
  length texts <> length (fn_args (sf_fn f)) ->
  main O J x M cf fuel s fl = Ok [Opens t; Complains; ShowsUsage; Exits 0].
Proof.
  intros O J x M cf fuel s fl t w f texts Eh R Ep Eo Hf Nd Ea N.
  destruct (main_reaches O J x M cf fuel s fl t w (fn_name (sf_fn f)) texts Eh R) as [E _]. rewrite (E Ep Eo Ea). unfold command. rewrite (find_own (sv_own s) f Hf Nd).
  apply Nat.eqb_neq in N. now rewrite N.
Qed.
Print Assumptions C83_count_refuted.
(** with a protocol there is not, before anything is opened. *)
Theorem C83_protocol_refuted : forall O J x M cf fuel s fl t,
  fl_help fl = false -> fl_args fl <> [] -> reached O fl t -> protocol_of (fl_protocol fl) = None ->
  main O J x M cf fuel s fl = Ok [Complains; ShowsUsage; Exits 0].
Proof.
  intros O J x M cf fuel s fl t Eh Na R Ep. destruct (fl_args fl) as [|cmd texts] eqn:Ea; [congruence|].
  destruct (main_reaches O J x M cf fuel s fl t WBinary cmd texts) as [_ E]; auto.
Qed.
Print Assumptions C83_protocol_refuted.
(** The protocols there are. *)
Theorem C83_protocols : forall p w, protocol_of p = Some w <->
  In (p, w) [(lit "compact", WCompact); (lit "simplejson", WSimpleJson); (lit "json", WJson); (lit "binary", WBinary); ([], WBinary)].
Proof.
  intros p w. unfold protocol_of. split.
  - destruct (beq p (lit "compact")) eqn:E1; [apply beq_iff in E1; subst; intros H; injection H as <-; cbn [In]; tauto|].
    destruct (beq p (lit "simplejson")) eqn:E2; [apply beq_iff in E2; subst; intros H; injection H as <-; cbn [In]; tauto|].
    destruct (beq p (lit "json")) eqn:E3; [apply beq_iff in E3; subst; intros H; injection H as <-; cbn [In]; tauto|].
    destruct (beq p (lit "binary") || beq p []) eqn:E4; [|discriminate].
    apply orb_true_iff in E4. rewrite !beq_iff in E4. intros H; injection H as <-. destruct E4 as [-> | ->]; cbn [In]; tauto.
  - cbn [In]. intros H. repeat (destruct H as [H|H]; [injection H as <- <-; reflexivity|]). destruct H.
Qed.
Print Assumptions C83_protocols.

(** ** C84: what it connects to *)

(** Nothing is opened but what the flags ask for: the host of -u, or else of -h, with the port of -p. *)
Theorem C84_opened : forall O J x M cf fuel s fl evs t, main O J x M cf fuel s fl = Ok evs -> In (Opens t) evs -> reached O fl t.
Proof.
  intros O J x M cf fuel s fl evs t H Hin.
  destruct (main_cases _ _ _ _ _ _ _ _ _ H) as [->|[->|[->|(cmd & texts & t' & w' & evs' & Ea & Eh & R & Ep & Eo & -> & Ec)]]];
    try (exfalso; unfold usage in Hin; cbn [In] in Hin; intuition discriminate).
  destruct Hin as [Hin|Hin]; [injection Hin as <-; assumption|]. exfalso.
  destruct (command_cases _ _ _ _ _ _ _ _ _ _ _ Ec) as [->|[->|[->|(f & us & Hf & En & L & Ev & ->)]]];
    unfold usage in Hin; cbn [In] in Hin; intuition discriminate.
Qed.
Print Assumptions C84_opened.
(** Without -u and -http, that is the socket at -h and -p, framed if -framed. *)
Theorem C84_socket : forall O fl t, fl_url fl = [] -> fl_http fl = false ->
  reached O fl t <-> o_resolve O (fl_host fl ++ [58] ++ FormatInt (fl_port fl)) = true /\
    t = (let k := TSocket (fl_host fl ++ [58] ++ FormatInt (fl_port fl)) in if fl_framed fl then TFramed k else k).
Proof.
  intros O fl t Eu Eh. unfold reached, target. rewrite Eu. split.
  - intros (host & http & (-> & -> & _) & R). rewrite Eh in R. destruct R as [(R & _)|(_ & R & ->)]; [discriminate|]. split; [exact R|reflexivity].
  - intros (R & ->). exists (fl_host fl), (fl_http fl). split; [split; [reflexivity|]; split; [reflexivity|]; rewrite Eh; discriminate|].
    right. split; [assumption|]. split; [exact R|reflexivity].
Qed.
Print Assumptions C84_socket.
(** An HTTP address is not used: with -u http://..., or with -http, the client asks for the empty URL, whatever was given, *)
Theorem C84_http_refuted : forall O fl t, reached O fl t ->
  match fl_url fl with
  | [] => fl_http fl = true
  | u => exists scheme host, o_url O u = Some (scheme, host) /\ (scheme = [] \/ scheme = lit "http")
  end -> t = THttpGet [].
Proof.
  intros O fl t (host & http & T & R) H. unfold target in T. destruct (fl_url fl) as [|c u].
  - destruct T as (-> & -> & _). rewrite H in R. destruct R as [(_ & _ & ->)|(R & _)]; [reflexivity|discriminate].
  - destruct H as (scheme & h & E & Hs). destruct T as (scheme' & E' & T). rewrite E in E'. injection E' as <- <-.
    apply T in Hs. subst http. destruct R as [(_ & _ & ->)|(R & _)]; [reflexivity|discriminate].
Qed.
Print Assumptions C84_http_refuted.
(** so that nothing can be called over HTTP, since there is no server at the empty URL; *)
Theorem C84_http_fails_refuted : forall O J x M cf fuel s fl evs t, o_get O [] = false ->
  match fl_url fl with
  | [] => fl_http fl = true
  | u => exists scheme host, o_url O u = Some (scheme, host) /\ (scheme = [] \/ scheme = lit "http")
  end -> main O J x M cf fuel s fl = Ok evs -> ~ In (Opens t) evs.
Proof.
  intros O J x M cf fuel s fl evs t G H E Hin. pose proof (C84_opened _ _ _ _ _ _ _ _ _ _ E Hin) as R.
  pose proof (C84_http_refuted O fl t R H) as ->. destruct R as (host & http & T & [(_ & R & _)|(_ & _ & R)]); [congruence|].
  destruct (fl_framed fl); discriminate.
Qed.
Print Assumptions C84_http_fails_refuted.
(** and a port in a URL of another scheme stays in the host, with the one of -p behind it. *)
Theorem C84_port_refuted : forall O fl t u scheme host port, fl_url fl = u -> u <> [] -> o_url O u = Some (scheme, host ++ [58] ++ port) ->
  scheme <> [] -> scheme <> lit "http" -> reached O fl t ->
  let k := TSocket (host ++ [58] ++ port ++ [58] ++ FormatInt (fl_port fl)) in t = k \/ t = TFramed k.
Proof.
  intros O fl t u scheme host port Eu Nu E N1 N2 (h & http & T & R). unfold target in T. rewrite Eu in T. destruct u as [|c u]; [congruence|].
  destruct T as (scheme' & E' & T). rewrite E in E'. injection E' as <- <-.
  destruct R as [(R & _)|(_ & _ & ->)]; [apply T in R; tauto|]. unfold address. rewrite <- !app_assoc. cbn zeta. destruct (fl_framed fl); auto.
Qed.
Print Assumptions C84_port_refuted.

(** ** Examples *)
Local Open Scope string_scope.
Local Open Scope list_scope.
Local Open Scope Z_scope.
Definition list_i32 : ty := TyList TyI32.
Definition fn82 : sfunc := MkSfunc (Fn (lit "put") [Mem 2 (lit "xs") false None list_i32; Mem 1 (lit "ys") false None list_i32] None [] false) [None; None].
Definition fn83 : sfunc := MkSfunc (Fn (lit "set") [Mem 1 (lit "flag") false None TyBool; Mem 2 (lit "n") false None TyI32;
    Mem 3 (lit "xs") false None list_i32; Mem 4 (lit "st") false None ty79] None [] false) [None; None; None; None].
Definition sv83 : service := MkService (lit "calc") (lit "Calc") [fn82; fn83] [sf_fn fn81].
Definition O83 : outside := MkOutside
  (fun u => if beq u (lit "tcp://a:1") then Some (lit "tcp", lit "a:1") else if beq u (lit "http://b/") then Some (lit "http", lit "b") else None)
  (fun a => true) (fun _ => false) (fun _ => true).
Definition run83 (fl : flags) : outcome (list event) := main O83 J0 extj 64 5 30 sv83 fl.
Definition args83 (l : list string) : flags := no_flags (map lit l).
Definition sock83 : trans := TSocket (lit "localhost:9090").
Example C83_ex :
  run83 (args83 ["set"; "true"; "-12"; "[8,2,5,-6]"; "{""id"":-300,""raw"":""AP8=""} and more"]) =
    Ok [Opens sock83; Calls sock83 WBinary (lit "set")
      [ABool true; AInt32 (-12); AList 0 I32 [AInt32 5; AInt32 (-6)];
       match gread (simpleR J0) extj 64 5 30 ty79 (simple_r [(lit "{""id"":-300,""raw"":""AP8=""}", None)]) with Ok (inl v, _) => v | _ => ANil end];
      Exits 0] /\
  run83 (args83 ["set"; "yes"; "4294967301"; "[8,0]"; "{}"]) =
    Ok [Opens sock83; Calls sock83 WBinary (lit "set") [ABool false; AInt32 5; AList 0 I32 [];
       match gread (simpleR J0) extj 64 5 30 ty79 (simple_r [(lit "{}", None)]) with Ok (inl v, _) => v | _ => ANil end]; Exits 0] /\
  run83 (args83 ["set"; "true"; "x"; "[8,0]"; "{}"]) = Ok [Opens sock83; ShowsUsage; Exits 0] /\
  run83 (args83 ["put"; "[8,1,5]"; "[8,1,6]"]) = Ok [Opens sock83; Calls sock83 WBinary (lit "put") [ANil; ANil]; Exits 0] /\
  run83 (args83 ["add"; "1"; "2"]) = Ok [Opens sock83; Complains; Exits 0] /\
  run83 (args83 ["put"]) = Ok [Opens sock83; Complains; ShowsUsage; Exits 0] /\
  run83 (MkFlags (lit "h") 1 (lit "thrift") [] false false false [lit "put"]) = Ok [Complains; ShowsUsage; Exits 0] /\
  run83 (MkFlags (lit "h") 1 (lit "json") (lit "http://b/") true false false [lit "put"]) = Ok [Complains; Exits 1] /\
  run83 (MkFlags (lit "h") 7 (lit "json") (lit "tcp://a:1") true false false [lit "put"]) =
    Ok [Opens (TFramed (TSocket (lit "a:1:7"))); Complains; ShowsUsage; Exits 0].
Proof. repeat split; vm_compute; reflexivity. Qed.
Example C82_ex : NoDup (map m_id (fn_args (sf_fn fn83))) /\ in_place 2 (Mem 3 (lit "xs") false None list_i32) /\
  says J0 extj 5 30 list_i32 (lit "[8,2,5,-6]") (AList 0 I32 [AInt32 5; AInt32 (-6)]) /\
  says J0 extj 5 30 TyI32 (lit "-12") (AInt32 (-12)) /\
  decimal (lit "4294967301") 4294967301 /\ ~ in_s 32 4294967301 /\ decimal (lit "-2") (-2) /\ ~ in_u 8 (-2) /\ lit "yes" <> lit "true" /\
  ~ in_place 0 (Mem 2 (lit "xs") false None list_i32).
Proof.
  assert (P : forall s z, ParseInt s 64 = (z, None) -> decimal s z) by (intros s z E; apply ParseInt_spec in E; [tauto|lia]).
  split; [repeat constructor; cbn; intuition lia|]. split; [intros _; reflexivity|].
  split.
  { change (lit "[8,2,5,-6]") with (stext J0 list_i32 (VList I32 [VI32 5; VI32 (-6)]) ++ []). apply sa_other.
    - now right.
    - repeat constructor.
    - concrete.
    - cbn. tauto.
    - exact (re_list extj 5 TyI32 I32 [VI32 5; VI32 (-6)] [AInt32 5; AInt32 (-6)] (MkTl I32 [AInt32 5; AInt32 (-6)])
               ltac:(repeat constructor) eq_refl).
    - exact I.
    - vm_compute; lia.
    - vm_compute; lia. }
  split; [constructor; [apply P; reflexivity|concrete]|].
  split; [apply P; reflexivity|]. split; [unfold in_s; lia|]. split; [apply P; reflexivity|]. split; [unfold in_u; lia|].
  split; [vm_compute; discriminate|]. intros H. specialize (H eq_refl). discriminate.
Qed.
Example C84_ex : reached O83 (no_flags []) sock83 /\ reached O83 (MkFlags (lit "h") 7 (lit "json") (lit "tcp://a:1") true false false []) (TFramed (TSocket (lit "a:1:7"))) /\
  o_url O83 (lit "tcp://a:1") = Some (lit "tcp", lit "a" ++ [58] ++ lit "1") /\ o_url O83 (lit "http://b/") = Some (lit "http", lit "b") /\ o_get O83 [] = false.
Proof.
  split; [apply C84_socket; split; reflexivity|].
  split; [exists (lit "a:1"), false; split; [exists (lit "tcp"); split; [reflexivity|]; split; [discriminate|intros [H|H]; vm_compute in H; discriminate]|]; right; repeat split; reflexivity|].
  repeat split; reflexivity.
Qed.
