(** The tutorial's client and server over TJSONProtocol: C102, C112. *)
From Coq Require Import ZArith List Bool Lia Permutation String.
From Coq Require Import ZifyBool ZifyNat.
From Verif Require Import Base Arith Errors Transport TransportProofs Proto Values WfDec Codec CompactSpec CompactStruct Access Strconv JsonText JsonTextProofs BufIO BufRead BufReadProofs
  Json JsonSpec JsonRead JsonReadVal JsonWrite JsonForm.
From Verif Require Import TField GoVal Compare TMap Gen GenSpec GenProofs GenInst GenRound PropGen PropJson
  AppExc AppExcProofs PropRpc Names Rpc RpcProofs PropService RpcInv PropJsonRpc Tutorial PropTutorial PropFramedTutorial Serve TutorialMain PropMain.
Import ListNotations.
Open Scope list_scope.
Open Scope Z_scope.
Local Notation length := List.length.

(** ** Texts *)
Section Short.
Variable J : jenv.
Definition short (n : nat) (v : tval) : Prop := plain_val J Short v /\ canon v = v /\ (length (vtext J v) <= n)%nat.
Definition shorts (n : nat) (fs : list (Z * tval)) : Prop :=
  plain_val J Short (VStruct fs) /\ canon (VStruct fs) = VStruct fs /\
  (1 + length (flat_map (fun f => [44%Z] ++ quoted (FormatInt (fst f)) ++ [58; 123]%Z ++ type_text (vtype (snd f)) ++
                           [58]%Z ++ vtext J (snd f) ++ [125]%Z) fs) <= n)%nat.
Lemma short_le : forall n m v, short n v -> (n <= m)%nat -> short m v.
Proof. intros n m v (P & C & L) N. split; [exact P|]. split; [exact C|lia]. Qed.
Lemma shorts_le : forall n m fs, shorts n fs -> (n <= m)%nat -> shorts m fs.
Proof. intros n m fs (P & C & L) N. split; [exact P|]. split; [exact C|unfold bytes in *; lia]. Qed.
Lemma short_val_of : forall n v, short n v -> (n <= 3000)%nat -> short_val J v.
Proof. intros n v (P & C & L) N. split; [exact P|]. split; [exact C|lia]. Qed.
Lemma short_i32 : forall z, short 21 (VI32 z).
Proof. intro z. split; [exact I|]. split; [reflexivity|apply format_len]. Qed.
Lemma short_str : forall s, text_ok J Short s -> short (length (json_quote (j_style J) s)) (VStr s).
Proof. intros s T. split; [exact T|]. split; [reflexivity|apply le_n]. Qed.
Lemma type_len : forall t, (length (type_text t) <= 8)%nat.
Proof.
  intro t. unfold type_text, quoted, TypeIdToString, type_names. cbn [lookup_type].
  repeat match goal with |- context [if ?c then _ else _] => destruct c end; vm_compute; lia.
Qed.
Lemma shorts_nil : shorts 2 [].
Proof. split; [exact I|]. split; [reflexivity|cbn; lia]. Qed.
Lemma shorts_cons : forall n m i v fs, vtype v <> I16 -> short n v -> shorts m fs -> shorts (60 + n + m) ((i, v) :: fs).
Proof.
  intros n m i v fs Nv (P & C & L) (Ps & Cs & Ls). split; [cbn; auto|]. split.
  - cbn [canon map fst snd] in *. rewrite C. injection Cs as ->. reflexivity.
  - cbn [flat_map fst snd]. unfold quoted in *. rewrite !app_length. cbn [length].
    pose proof (format_len i). pose proof (type_len (vtype v)). unfold bytes in *. lia.
Qed.
Lemma short_struct : forall n fs, shorts n fs -> short (S n) (VStruct fs).
Proof.
  intros n fs (P & C & L). split; [exact P|]. split; [exact C|]. cbn [vtext]. rewrite !app_length. cbn [length].
  revert L. generalize (flat_map (fun f : Z * tval => [44] ++ quoted (FormatInt (fst f)) ++ [58; 123] ++
    type_text (vtype (snd f)) ++ [58] ++ vtext J (snd f) ++ [125]) fs). intros [|c l] L; cbn in *; lia.
Qed.
End Short.

(** ** The server's log and the client's comments *)

(** What the server logs: numbers in decimal.  A comment, which nothing but the client's user chooses, must be
    a text and take at most 2000 bytes when written. *)
Definition numeral (t : bytes) : bool :=
  forallb (fun c => ((48 <=? c) && (c <=? 57)) || (c =? 45)) t && (length t <=? 21)%nat.
Definition numeral_entry (v : any) : bool :=
  match v with AStruct _ _ _ [_; (_, AStr t)] => numeral t | _ => false end.
Definition numerals (p : tlog) : bool := forallb (fun e => numeral_entry (snd e)) p.
Definition said (J : jenv) (args : list any) : Prop := forall ad n fc attrs s,
  In (AStruct ad n fc attrs) args -> In (4, AStr s) attrs ->
  text_ok J Short s /\ (length (json_quote (j_style J) s) <= 2000)%nat.
Definition num_handle (p : tlog) (name : bytes) (vals : list any) :=
  if numerals p then safe_handle p name vals else (([], Some s_panic), p).

Lemma numeral_plain : forall t, numeral t = true -> Forall plain t /\ (length t <= 21)%nat.
Proof.
  intros t N. apply andb_true_iff in N. destruct N as [F L]. split; [|lia].
  apply Forall_forall. intros c I. rewrite forallb_forall in F. specialize (F c I). unfold plain. lia.
Qed.
Lemma plain_text : forall J t, Forall plain t -> text_ok J Short t /\ length (json_quote (j_style J) t) = (2 + length t)%nat.
Proof.
  intros J t F. split.
  - split; [|exact I]. apply ascii_utf8. apply forallb_forall. intros c Hc. rewrite Forall_forall in F. specialize (F c Hc).
    unfold plain in F. lia.
  - rewrite json_quote_plain by exact F. unfold quoted. rewrite !app_length. cbn [length]. lia.
Qed.
Lemma format_numeral : forall z, numeral (FormatInt z) = true.
Proof.
  assert (D : forall f n acc, 0 <= n -> forallb (fun c => ((48 <=? c) && (c <=? 57)) || (c =? 45)) acc = true ->
    forallb (fun c => ((48 <=? c) && (c <=? 57)) || (c =? 45)) (dec_digits f n acc) = true).
  { induction f as [|f IH]; intros n acc Hn Ha; cbn [dec_digits]; [exact Ha|].
    assert (Hd : forallb (fun c => ((48 <=? c) && (c <=? 57)) || (c =? 45)) ((48 + n mod 10) :: acc) = true).
    { cbn [forallb]. rewrite Ha, andb_true_r. pose proof (Z.mod_pos_bound n 10 ltac:(lia)). lia. }
    destruct (_ =? 0); [exact Hd|]. apply IH; [apply Z.div_pos; lia|exact Hd]. }
  intro z. unfold numeral. pose proof (format_len z). apply andb_true_iff. split; [|lia].
  unfold FormatInt, format_uint. destruct (Z.ltb_spec z 0); [cbn [forallb]|]; apply D; auto; lia.
Qed.
Lemma num_put : forall p id z, numerals p = true -> numerals (log_put p id (mk_shared id (FormatInt z))) = true.
Proof.
  intros p id z L. unfold log_put, numerals. cbn [forallb snd]. apply andb_true_iff. split.
  - exact (format_numeral z).
  - unfold numerals in L. rewrite forallb_forall in *. intros e He. apply filter_In in He. apply L, He.
Qed.
Lemma num_get : forall p k, numerals p = true -> log_get p k = ANil \/ numeral_entry (log_get p k) = true.
Proof.
  intros p k L. unfold log_get. destruct (find _ p) as [e|] eqn:E; [|auto]. right.
  apply find_some in E. unfold numerals in L. rewrite forallb_forall in L. apply L, E.
Qed.
Lemma num_keeps : forall p name vals, numerals p = true -> numerals (snd (tut_handle p name vals)) = true.
Proof.
  intros p name vals L. unfold tut_handle. destruct (str_eq _ _).
  { destruct vals as [|[] []]; exact L. }
  destruct (str_eq _ _).
  { destruct vals as [|[] [|[] []]]; exact L. }
  destruct (str_eq _ _); [|exact L].
  destruct vals as [|[] [|w []]]; try exact L.
  destruct (_ =? _); [|exact L]. unfold h_Calculate.
  destruct w; try exact L. destruct (attribute attrs 3); try exact L. destruct (attribute attrs 1); try exact L.
  destruct (attribute attrs 2); try exact L. cbv zeta.
  repeat match goal with |- context [if ?c then _ else _] => destruct c end; try exact L; cbn [snd]; apply num_put, L.
Qed.

Ltac shorter n := apply (short_val_of _ n); [|lia].
Lemma entry_short : forall J x v w, entry_fits v = true -> numeral_entry v = true -> wireof x (TyStruct shared_name shared_ms) v w ->
  short J 300 w.
Proof.
  intros J x v w H Ll Ww. destruct (entry_shape v H) as (ad & fc & k & t & -> & _).
  destruct (numeral_plain t Ll) as [Pt Lt]. destruct (plain_text J t Pt) as [Tt Qt].
  assert (w = VStruct [(1, VI32 k); (2, VStr t)]) as ->.
  { inversion Ww as [| | | | | | | | | | | |? ? ? ? ? ? F]; subst. cbn in F.
    inversion F; subst; [discriminate|]. clear F. cbn in *.
    match goal with F : wireoff _ _ _ _ |- _ => inversion F; subst; [discriminate|]; clear F end. cbn in *.
    match goal with F : wireoff _ _ [] _ |- _ => inversion F; subst; clear F end.
    wires. reflexivity. }
  eapply short_le; [apply short_struct, shorts_cons; [discriminate|apply short_i32|]; apply shorts_cons; [discriminate|apply short_str, Tt|apply shorts_nil]|lia].
Qed.
Lemma ascii_text : forall J s, forallb (fun c => (32 <=? c) && (c <? 127) && negb (c =? 34) && negb (c =? 92) && negb (c =? 60) &&
  negb (c =? 62) && negb (c =? 38)) s = true ->
  short J (2 + length s) (VStr s).
Proof.
  intros J s F. assert (P : Forall plain s).
  { apply Forall_forall. intros c I. rewrite forallb_forall in F. specialize (F c I). unfold plain. lia. }
  destruct (plain_text J s P) as [T Q]. rewrite <- Q. apply short_str, T.
Qed.
Lemma invalid_short : forall J x what why w, why = s_divide \/ why = s_operation ->
  wireof x (TyStruct invalid_name invalid_ms) (mk_invalid what why) w -> short J 300 w.
Proof.
  intros J x what why w Hw Ww.
  inversion Ww as [| | | | | | | | | | | |? ? ? ? ? ? F]; subst. cbn in F.
  inversion F; subst; [discriminate|]. clear F. cbn in *.
  match goal with F : wireoff _ _ _ _ |- _ => inversion F; subst; [discriminate|]; clear F end. cbn in *.
  match goal with F : wireoff _ _ [] _ |- _ => inversion F; subst; clear F end.
  wires.
  eapply short_le; [apply short_struct, shorts_cons; [discriminate|apply short_i32|]; apply shorts_cons; [discriminate| |apply shorts_nil]|].
  - apply ascii_text. destruct Hw as [-> | ->]; reflexivity.
  - destruct Hw as [-> | ->]; vm_compute; lia.
Qed.
Lemma reply_short : forall J x f p vals attrs p' rf, In f calculator ->
  num_handle p (fn_name f) vals = ((attrs, None), p') -> reply x f attrs rf -> short_val J (VStruct rf).
Proof.
  intros J x f p vals attrs p' rf Hf E Rp. unfold num_handle in E. destruct (numerals p) eqn:Ll; [|discriminate].
  unfold safe_handle in E. destruct (fits p) eqn:F; [|discriminate].
  assert (One : forall i w, vtype w <> I16 -> short J 300 w -> short_val J (VStruct [(i, w)])).
  { intros i w Nw Sw. eapply short_val_of; [apply short_struct, shorts_cons; [exact Nw|exact Sw|apply shorts_nil]|lia]. }
  assert (Nil : short_val J (VStruct [])) by (eapply short_val_of; [apply short_struct, shorts_nil|lia]).
  assert (Num : forall z, short J 300 (VI32 z)) by (intro z; eapply short_le; [apply short_i32|lia]).
  destruct Hf as [<-|[<-|[<-|[<-|[<-|[]]]]]].
  - change (tut_handle p (fn_name f_getStruct) vals) with
      (match vals with [AInt32 key] => (([(0, h_GetStruct p key)], @None bytes), p) | _ => (([], Some s_panic), p) end) in E.
    destruct vals as [|[| | | | | |k| | | | | | | | | | | | | | | | | |] []]; try discriminate. injection E as <- <-.
    inversion Rp as [m w [[] _]|t w _ Et Ww|t N Et A|N Et]; subst; [| |discriminate].
    + cbn in Et. injection Et as <-. change (attribute _ 0) with (log_get p k) in Ww.
      destruct (get_fits p k F) as [G|G]; [rewrite G in Ww; inversion Ww|].
      destruct (num_get p k Ll) as [G'|G']; [rewrite G' in Ww; inversion Ww|].
      apply One; [inversion Ww; discriminate|]. eapply entry_short; eassumption.
    + exact Nil.
  - inversion Rp as [m w [[] _]|t w _ Et Ww|t N Et A|N Et]; subst; try discriminate; exact Nil.
  - change (tut_handle p (fn_name f_add) vals) with
      (match vals with [AInt32 a; AInt32 b] => (([(0, AInt32 (h_Add a b))], @None bytes), p) | _ => (([], Some s_panic), p) end) in E.
    destruct vals as [|[| | | | | |a| | | | | | | | | | | | | | | | | |] [|[| | | | | |b| | | | | | | | | | | | | | | | | |] []]]; try discriminate.
    injection E as <- <-.
    inversion Rp as [m w [[] _]|t w _ Et Ww|t N Et A|N Et]; subst; [| |discriminate]; cbn in Et; injection Et as <-.
    + inversion Ww; subst. apply One; [discriminate|apply Num].
    + destruct A as [(D & _)|(tag & n & cs & D & _)]; discriminate.
  - change (tut_handle p (fn_name f_calculate) vals) with
      (match vals with
       | [AInt32 logid; w] =>
         if wraps 32 logid =? logid then
           match h_Calculate p logid w with
           | Ok (val, ouch, p') => (([(0, AInt32 val); (1, ouch)], @None bytes), p')
           | _ => (([], Some s_panic), p)
           end
         else (([], Some s_panic), p)
       | _ => (([], Some s_panic), p)
       end) in E.
    destruct vals as [|[| | | | | |id| | | | | | | | | | | | | | | | | |] [|w []]]; try discriminate.
    destruct (wraps 32 id =? id); [|discriminate].
    destruct (h_Calculate p id w) as [[[val ouch] q]| |] eqn:C; try discriminate. injection E as <- <-.
    apply calculate_cases in C. destruct C as [V C].
    inversion Rp as [m w' [[<-|[]] Nm] _ Ww|t w' _ Et Ww|t N Et A|N Et]; subst; try discriminate.
    + change (attribute _ (m_id _)) with ouch in *. destruct C as [[-> _]|(_ & _ & what & why & -> & W & Y)]; [destruct (Nm eq_refl)|].
      apply One; [inversion Ww; discriminate|]. eapply invalid_short; eassumption.
    + cbn in Et. injection Et as <-. inversion Ww; subst. apply One; [discriminate|apply Num].
    + cbn in Et. injection Et as <-. destruct A as [(D & _)|(tag & n & cs & D & _)]; discriminate.
  - inversion Rp as [m w [[] _]|t w _ Et Ww|t N Et A|N Et]; subst; try discriminate; exact Nil.
Qed.
Lemma text_short : forall J f p vals attrs text p', In f calculator ->
  num_handle p (fn_name f) vals = ((attrs, Some text), p') ->
  let e := MkExc INTERNAL_ERROR (s_internal ++ fn_name f ++ s_colon ++ text) in
  exc_ok e /\ short_val J (VStruct (exc_fields e)).
Proof.
  intros J f p vals attrs text p' Hf E.
  assert (text = s_panic) as ->.
  { unfold num_handle, safe_handle, tut_handle in E. destruct (numerals p); [|congruence]. destruct (fits p); [|congruence].
    repeat match type of E with
    | (if ?c then _ else _) = _ => destruct c
    | match ?c with _ => _ end = _ => destruct c
    end; congruence. }
  cbv zeta. destruct Hf as [<-|[<-|[<-|[<-|[<-|[]]]]]]; (split; [unfold exc_ok; (split; [concrete|split; [concrete|vm_compute; reflexivity]])|]).
  all: eapply short_val_of; [apply short_struct; cbv [exc_fields]; apply shorts_cons; [discriminate| |apply shorts_cons; [discriminate|apply short_i32|apply shorts_nil]];
    apply ascii_text; reflexivity|vm_compute; lia].
Qed.
Lemma args_short : forall J x q f args wv, asks q (f, args) -> said J args ->
  wireof x (TyStruct (args_name f) (fn_args f)) (args_val f args) wv -> short_val J wv.
Proof.
  intros J x q f args wv A B W.
  assert (Cons : forall n m i z fs, shorts J m fs -> (60 + 21 + m <= n)%nat -> shorts J n ((i, VI32 z) :: fs)).
  { intros n m i z fs Sf Hn. eapply shorts_le; [apply shorts_cons; [discriminate|apply short_i32|exact Sf]|exact Hn]. }
  assert (Nil : shorts J 2 []) by apply shorts_nil.
  inversion A as [|a b Ha Hb|id op a b addr fc comment Hi Ho Ha Hb Bc Lc|k Hk]; subst.
  - inversion W as [| | | | | | | | | | | |? ? ? ? ? ? F]; subst. cbn in F. inversion F; subst.
    eapply short_val_of; [apply short_struct, Nil|lia].
  - inversion W as [| | | | | | | | | | | |? ? ? ? ? ? F]; subst. cbn in F.
    inversion F; subst; [discriminate|]. clear F. cbn in *.
    match goal with F : wireoff _ _ _ _ |- _ => inversion F; subst; [discriminate|]; clear F end. cbn in *.
    match goal with F : wireoff _ _ [] _ |- _ => inversion F; subst; clear F end.
    wires. eapply short_val_of; [apply short_struct; eapply Cons; [eapply Cons; [exact Nil|apply le_n]|apply le_n]|lia].
  - destruct (B addr work_name fc _ comment (or_intror (or_introl eq_refl)) ltac:(cbn; auto 8)) as [Tc Qc].
    assert (Com : shorts J 2062 [(4, VStr comment)]).
    { eapply shorts_le; [apply shorts_cons; [discriminate|apply short_str, Tc|exact Nil]|lia]. }
    inversion W as [| | | | | | | | | | | |? ? ? ? ? ? F]; subst. cbn [sorted_members fn_args f_calculate insert_m m_id Z.ltb Z.compare Pos.compare Pos.compare_cont] in F.
    inversion F as [|? ? ? ? E|? ? ? ? ? E I1 W1 F1]; subst; [discriminate|]. clear F.
    inversion F1 as [|? ? ? ? E2|? ? ? ? ? E2 I2 W2 F2]; subst; [discriminate|]. clear F1.
    inversion F2; subst; clear F2. inversion W1; subst. clear W1.
    inversion W2 as [| | | | | | | | | | | |? ? ? ? ? ? F]; subst. clear W2.
    change (sorted_members work_ms) with work_ms in F. unfold work_ms in F.
    assert (Arg : forall gs, shorts J 2400 gs -> short_val J (VStruct [(1, VI32 id); (2, VStruct gs)])).
    { intros gs Sf. eapply short_val_of; [apply short_struct; eapply Cons; [apply shorts_cons; [discriminate|apply short_struct, Sf|exact Nil]|apply le_n]|lia]. }
    inversion F as [|? ? ? ? E3|? ? ? ? ? E3 I3 W3 F3]; subst; [discriminate|]. clear F.
    inversion F3 as [|? ? ? ? E4|? ? ? ? ? E4 I4 W4 F4]; subst; [discriminate|]. clear F3.
    inversion W3; subst. inversion W4; subst. clear W3 W4.
    assert (Fin : forall z ks, ks = [] \/ ks = [(4, VStr comment)] ->
      forall gs, gs = ks \/ gs = (3, VI32 z) :: ks -> shorts J 2143 gs).
    { intros z ks Hk0 gs Hgs. assert (S1 : shorts J 2062 ks).
      { destruct Hk0 as [-> | ->]; [eapply shorts_le; [exact Nil|lia]|exact Com]. }
      destruct Hgs as [-> | ->]; [eapply shorts_le; [exact S1|lia]|eapply Cons; [exact S1|lia]]. }
    apply Arg. apply (Cons _ 2224%nat); [apply (Cons _ 2143%nat); [|apply Nat.leb_le; reflexivity]|apply Nat.leb_le; reflexivity].
    inversion F4 as [|? ? ? ? E5 F5|? ? ? ? ? E5 I5 W5 F5]; subst; clear F4.
    + inversion F5 as [|? ? ? ? E6 F6|? ? ? ? ? E6 I6 W6 F6]; subst; clear F5; inversion F6; subst;
        [|inversion W6; subst]; (eapply (Fin 0); [|left; reflexivity]); auto.
    + inversion W5; subst. inversion F5 as [|? ? ? ? E6 F6|? ? ? ? ? E6 I6 W6 F6]; subst; clear F5; inversion F6; subst;
        [|inversion W6; subst]; (eapply Fin; [|right; reflexivity]); auto.
  - inversion W as [| | | | | | | | | | | |? ? ? ? ? ? F]; subst. cbn in F.
    inversion F; subst; [discriminate|]. clear F. cbn in *.
    match goal with F : wireoff _ _ [] _ |- _ => inversion F; subst; clear F end.
    wires. eapply short_val_of; [apply short_struct; eapply Cons; [exact Nil|apply le_n]|lia].
Qed.
Lemma asked_short : forall J x qs l, Forall2 asks qs l -> (forall f args, In (f, args) l -> said J args) ->
  forall f args, In (f, args) l -> forall wv,
  wireof x (TyStruct (args_name f) (fn_args f)) (args_val f args) wv -> short_val J wv.
Proof.
  intros J x qs l A. induction A as [|q [g ar] qs l Hq A IH]; intros B f args H wv W; [destruct H|].
  destruct H as [E|H].
  - injection E as -> ->. eapply args_short; [exact Hq|apply (B f args); left; reflexivity|exact W].
  - eapply IH; [intros h a Ha; apply (B h a); right; exact Ha|exact H|exact W].
Qed.
Definition num_ok (p : tlog) : Prop := fits p = true /\ numerals p = true.
Lemma num_agree : forall q name vals, num_ok q -> tut_handle q name vals = num_handle q name vals.
Proof. intros q name vals [F L]. unfold num_handle, safe_handle. rewrite F, L. reflexivity. Qed.
Lemma numok_keeps : forall q name vals, num_ok q -> num_ok (snd (tut_handle q name vals)).
Proof. intros q name vals [F L]. split; [apply safe_keeps, F|apply num_keeps, L]. Qed.

(** As C102_binary_partial, over TJSONProtocol, each message arriving in one piece.  Missing as there: zip, calculate
    without a Work; and comments that are no texts or are long, see C99. *)
Theorem C102_json_partial : forall J x M cf fuel errtext qs l p h,
  orders x -> (10 <= fuel)%nat -> Forall2 asks qs l -> (forall f args, In (f, args) l -> said J args) ->
  fits p = true -> numerals p = true -> logged p h ->
  exists rs st a h',
    calls (jsonR J) (jsonW J) nop jfreshR jfreshW x M cf fuel errtext tut_handle calculator jdrain jfeed
      (fun _ b => [b]) 0 l (jstart p) = Ok (rs, st) /\
    dialogue h qs a h' /\ Forall2 shows a rs /\ logged (pr_h st) h' /\ fits (pr_h st) = true /\ numerals (pr_h st) = true.
Proof.
  intros J x M cf fuel errtext qs l p h Ho Hf A B Fp Lp L.
  destruct (C99_small_calls_partial tlog J x M cf fuel errtext num_handle calculator l p) as (rs & st & E & Sv); try assumption; try lia.
  - intros f If. split; [apply calculator_ok, If|].
    assert (S : forall n, forallb (fun c => (32 <=? c) && (c <? 127) && negb (c =? 34) && negb (c =? 92) && negb (c =? 60) &&
      negb (c =? 62) && negb (c =? 38)) n = true -> (2 + length n <= 1000)%nat -> short_name J n).
    { intros n Hn Hl. destruct (ascii_text J n Hn) as (P & _ & Lq). split; [exact P|]. cbn [vtext] in Lq. unfold bytes in *. lia. }
    destruct If as [<-|[<-|[<-|[<-|[<-|[]]]]]]; apply S; vm_compute; try reflexivity; lia.
  - exact calculator_names.
  - intros f m If Im.
    destruct If as [<-|[<-|[<-|[<-|[<-|[]]]]]]; cbn in Im;
      repeat (destruct Im as [<-|Im]; [cbn; repeat constructor; intros ? Q; repeat (destruct Q as [<-|Q]; [constructor|]); destruct Q|]); destruct Im.
  - intros f q vals attrs q' If E. assert (E' := E). unfold num_handle in E'. destruct (numerals q); [|discriminate].
    destruct (safe_results x f q vals attrs q' If E') as [K N]. split; [exact K|].
    intros rf Rp. destruct (N rf Rp). split; [eapply reply_short; eassumption|lia].
  - intros f q vals attrs text q' If E. eapply text_short; eassumption.
  - intros f args H. destruct (asked_ok x _ _ A f args H) as (If & One & Ka & W).
    split; [exact If|]. split; [exact One|]. split; [exact Ka|]. intros wv Ww. destruct (W wv Ww).
    split; [eapply asked_short; eassumption|lia].
  - destruct (serves_agree tut_handle num_handle num_ok num_agree numok_keeps l p rs _ (conj Fp Lp) Sv) as [Sv' [Fp' Lp']].
    destruct (steps _ _ _ _ _ _ A L Sv') as (a & h' & D & Sh & L').
    exists rs, st, a, h'. split; [|auto].
    rewrite (calls_agree _ _ _ _ _ _ _ _ _ _ tut_handle num_handle num_ok num_agree numok_keeps); [exact E|split; assumption].
Qed.
Print Assumptions C102_json_partial.
Lemma perform_said : forall J f args, In (f, args) Perform -> said J args.
Proof.
  intros J f args H. destruct (plain_text J [] (Forall_nil _)) as [T Q]. unfold said. intros ad n fc attrs s Ia Is.
  assert (s = []) as ->.
  { destruct H as [H|[H|[H|[H|[H|[]]]]]]; injection H as <- <-; cbn in Ia;
      repeat (destruct Ia as [Ia|Ia]; [try discriminate|]); try contradiction; injection Ia as <- <- <- <-; cbn in Is;
      repeat (destruct Is as [Is|Is]; [try discriminate|]); try contradiction; injection Is; auto. }
  split; [exact T|]. unfold bytes in *. rewrite Q. cbn. lia.
Qed.
(** The calls of the tutorial's client, and one with a comment that needs escapes. *)
Definition remark : bytes := lit "a ""quoted"" remark".
Example C102_json_ex :
  (forall f args, In (f, args) Perform -> said J0 args) /\
  said J0 [AInt32 1; AStruct 1 work_name (fc_of work_ms) [(1, AInt32 6); (2, AInt32 7); (3, mk_op 3); (4, AStr remark)]] /\
  fits [] = true /\ numerals [] = true /\ logged [] [] /\
  numerals (log_put [] 7 (mk_shared 7 (FormatInt (-3)))) = true /\
  (exists rs st, calls (jsonR J0) (jsonW J0) nop jfreshR jfreshW ext0 64 5 40 errtext0 tut_handle calculator jdrain jfeed
     (fun _ b => [b]) 0 Perform (jstart []) = Ok (rs, st) /\
     Forall2 shows [Done; Number 2; Refused 4 "Cannot divide by 0"; Number 5; Entry 1 5] rs).
Proof.
  split; [exact (perform_said J0)|]. split.
  { unfold said. intros ad n fc attrs s Ia Is. destruct Ia as [D|[Ia|[]]]; [discriminate|]. injection Ia as <- <- <- <-.
    destruct Is as [D|[D|[D|[Is|[]]]]]; try discriminate. injection Is as <-.
    split; [apply short_of; reflexivity|vm_compute; lia]. }
  split; [reflexivity|]. split; [reflexivity|]. split; [split; [intros k v H; inversion H|intros k _; reflexivity]|].
  split; [vm_compute; reflexivity|].
  eexists _, _. split; [vm_compute; reflexivity|].
  repeat constructor; cbn; eauto 8. eexists _, _, _. split; [reflexivity|].
  apply (dec_pos [53]); [discriminate|]. repeat constructor; lia.
Qed.

(** ** C112: the program as client and as server, both told to use json and no frames *)
Theorem C112_json_talk_partial : forall gc gs oc os n tc ts pc ps,
  In (DPerform tc pc) (fst (main gc oc n)) -> In (DServe ts ps) (fst (main gs os n)) ->
  g_protocol gc = lit "json" -> g_protocol gs = lit "json" -> g_framed gc = false -> g_framed gs = false ->
  tc = TFPlain /\ ts = TFPlain /\ pc = MJSON /\ ps = MJSON /\
  forall J x M cf fuel errtext p h, orders x -> (10 <= fuel)%nat -> fits p = true -> numerals p = true -> logged p h ->
    exists rs st, calls (jsonR J) (jsonW J) nop jfreshR jfreshW x M cf fuel errtext tut_handle calculator jdrain jfeed
        (fun _ b => [b]) 0 Perform (jstart p) = Ok (rs, st) /\
      Forall2 shows [Done; Number 2; Refused 4 "Cannot divide by 0"; Number 5; Entry 1 5] rs /\
      logged (pr_h st) ((1, 5) :: h).
Proof.
  intros gc gs oc os n tc ts pc ps Ic Is Pc Ps Fc Fs.
  apply (C112_only gc oc n tc pc) in Ic. apply (C112_only gs os n ts ps) in Is.
  destruct Ic as (sc & fc & (_ & _ & _ & Pc' & Fc') & Nc & Wc). destruct Is as (ss & f2 & (_ & _ & _ & Ps' & Fs') & Ns & Ws).
  rewrite Fc in Fc'. rewrite Fs in Fs'. subst fc f2.
  split; [inversion Wc; reflexivity|]. split; [inversion Ws; reflexivity|].
  assert (N : forall s p, lit "json" = lit s -> named s p -> p = MJSON).
  { intros s p E H. inversion H; subst; try reflexivity; vm_compute in E; discriminate. }
  split; [eapply N; [rewrite <- Pc; exact Pc'|exact Nc]|]. split; [eapply N; [rewrite <- Ps; exact Ps'|exact Ns]|].
  intros J x M cf fuel errtext p h Ho Hf Fp Lp L.
  destruct (C102_json_partial J x M cf fuel errtext _ _ p h Ho Hf perform_asks (perform_said J) Fp Lp L)
    as (rs & st & a & h' & E & D & Sh & L' & _).
  destruct (perform_answers _ _ _ D) as [-> ->]. exists rs, st. split; [exact E|]. split; assumption.
Qed.
Print Assumptions C112_json_talk_partial.
Example C112_json_case :
  let gc := MkFlags true false (lit "json") false false false in
  let gs := MkFlags false true (lit "json") false false false in
  main gc quiet 1 = ([DPerform TFPlain MJSON], Exits 0) /\
  main gs quiet 2 = ([DServe TFPlain MJSON; DServe TFPlain MJSON], Runs).
Proof. split; reflexivity. Qed.
