(** The tutorial's client and server over TSimpleJSONProtocol: C102, C112. *)
From Coq Require Import ZArith List Bool Lia Permutation String.
From Coq Require Import ZifyBool ZifyNat.
From Verif Require Import Base Arith Errors Transport TransportProofs Proto Values WfDec Codec CompactSpec CompactStruct Access Strconv JsonText JsonTextProofs BufIO BufRead BufReadProofs
  Json JsonSpec JsonRead JsonReadVal JsonWrite JsonForm.
From Verif Require Import TField GoVal Compare TMap Gen GenSpec GenProofs GenInst GenRound PropGen PropJson SimpleGen PropSimpleGen
  AppExc AppExcProofs PropRpc Names Rpc RpcProofs PropService RpcInv PropJsonRpc PropSimpleRpc Tutorial PropTutorial PropFramedTutorial
  Serve TutorialMain PropMain PropJsonTutorial.
Import ListNotations.
Open Scope list_scope.
Open Scope Z_scope.
Local Notation length := List.length.

(** ** Texts *)
Section Small.
Variable J : jenv.
Definition sm (n : nat) (t : ty) (v : tval) : Prop := splain J t v /\ canon v = v /\ (length (stext J t v) <= n)%nat.
Definition sms (n : nat) (ms : list member) (fs : list (Z * tval)) : Prop :=
  splain J (TyStruct [] ms) (VStruct fs) /\ canon (VStruct fs) = VStruct fs /\
  (1 + length (flat_map (fun f => [44%Z] ++ json_quote (j_style J) (mem_name ms (fst f)) ++ [58]%Z ++
                           stext J (mem_ty ms (fst f)) (snd f)) fs) <= n)%nat.
(** [i] is one of the members, of a name that needs no escapes. *)
Definition named_mem (ms : list member) (i : Z) : bool :=
  match mem_of ms i with
  | Some _ => forallb (fun c => (32 <=? c) && (c <? 127) && negb (c =? 34) && negb (c =? 92) && negb (c =? 60) &&
      negb (c =? 62) && negb (c =? 38)) (mem_name ms i) && (length (mem_name ms i) <=? 20)%nat
  | None => false
  end.
Lemma sm_le : forall n m t v, sm n t v -> (n <= m)%nat -> sm m t v.
Proof. intros n m t v (P & C & L) N. split; [exact P|]. split; [exact C|lia]. Qed.
Lemma sms_le : forall n m ms fs, sms n ms fs -> (n <= m)%nat -> sms m ms fs.
Proof. intros n m ms fs (P & C & L) N. split; [exact P|]. split; [exact C|unfold bytes in *; lia]. Qed.
Lemma small_of : forall n t v, sm n t v -> (n <= 3000)%nat -> small J t v.
Proof. intros n t v (P & C & L) N. split; [exact P|]. split; [exact C|lia]. Qed.
Lemma sm_i32 : forall t z, sm 21 t (VI32 z).
Proof. intros t z. split; [exact I|]. split; [reflexivity|apply format_len]. Qed.
Lemma sm_str : forall s, text_ok J Strict s -> sm (length (json_quote (j_style J) s)) TyString (VStr s).
Proof. intros s T. split; [exact T|]. split; [reflexivity|apply le_n]. Qed.
Lemma sms_nil : forall ms, sms 2 ms [].
Proof. split; [exact I|]. split; [reflexivity|cbn; lia]. Qed.
Lemma plain_strict : forall t, Forall plain t -> text_ok J Strict t /\ length (json_quote (j_style J) t) = (2 + length t)%nat.
Proof.
  intros t F. split.
  - split; [|exact I]. apply ascii_utf8. apply forallb_forall. intros c Hc. rewrite Forall_forall in F. specialize (F c Hc).
    unfold plain in F. lia.
  - rewrite json_quote_plain by exact F. unfold quoted. rewrite !app_length. cbn [length]. lia.
Qed.
Lemma printable_plain : forall s, forallb (fun c => (32 <=? c) && (c <? 127) && negb (c =? 34) && negb (c =? 92) && negb (c =? 60) &&
  negb (c =? 62) && negb (c =? 38)) s = true -> Forall plain s.
Proof. intros s F. apply Forall_forall. intros c I. rewrite forallb_forall in F. specialize (F c I). unfold plain. lia. Qed.
Lemma sms_cons : forall n m ms i v fs, named_mem ms i = true -> sm n (mem_ty ms i) v -> sms m ms fs -> sms (60 + n + m) ms ((i, v) :: fs).
Proof.
  intros n m ms i v fs Nm (P & C & L) (Ps & Cs & Ls). unfold named_mem in Nm.
  destruct (mem_of ms i) eqn:Em; [|discriminate]. apply andb_true_iff in Nm. destruct Nm as [Np Nl].
  destruct (plain_strict _ (printable_plain _ Np)) as [Tn Qn]. split; [|split].
  - cbn [splain all fst snd] in *. split; [|exact Ps]. split; [congruence|]. split; [exact Tn|exact P].
  - cbn [canon map fst snd] in *. rewrite C. injection Cs as ->. reflexivity.
  - cbn [flat_map fst snd]. unfold quoted in *. rewrite !app_length. cbn [length]. unfold bytes in *. lia.
Qed.
Lemma sm_struct : forall n name ms fs, sms n ms fs -> sm (S n) (TyStruct name ms) (VStruct fs).
Proof.
  intros n name ms fs (P & C & L). split; [exact P|]. split; [exact C|]. cbn [stext]. rewrite !app_length. cbn [length].
  revert L. generalize (flat_map (fun f : Z * tval => [44] ++ json_quote (j_style J) (mem_name ms (fst f)) ++ [58] ++
    stext J (mem_ty ms (fst f)) (snd f)) fs). intros [|c l] L; cbn in *; lia.
Qed.
Lemma sm_ascii : forall s, forallb (fun c => (32 <=? c) && (c <? 127) && negb (c =? 34) && negb (c =? 92) && negb (c =? 60) &&
  negb (c =? 62) && negb (c =? 38)) s = true -> sm (2 + length s) TyString (VStr s).
Proof. intros s F. destruct (plain_strict s (printable_plain s F)) as [T Q]. rewrite <- Q. apply sm_str, T. Qed.
End Small.

(** ** What is sent *)

(** A comment must be a text and take at most 2000 bytes when written. *)
Definition remarked (J : jenv) (args : list any) : Prop := forall ad n fc attrs s,
  In (AStruct ad n fc attrs) args -> In (4, AStr s) attrs ->
  text_ok J Strict s /\ (length (json_quote (j_style J) s) <= 2000)%nat.

Ltac sfield := apply sms_cons; [reflexivity| |].
Lemma entry_small : forall J x v w, entry_fits v = true -> numeral_entry v = true -> wireof x (TyStruct shared_name shared_ms) v w ->
  sm J 300 (TyStruct shared_name shared_ms) w.
Proof.
  intros J x v w H Ll Ww. destruct (entry_shape v H) as (ad & fc & k & t & -> & _).
  destruct (numeral_plain t Ll) as [Pt Lt]. destruct (plain_strict J t Pt) as [Tt Qt].
  assert (w = VStruct [(1, VI32 k); (2, VStr t)]) as ->.
  { inversion Ww as [| | | | | | | | | | | |? ? ? ? ? ? F]; subst. cbn in F.
    inversion F; subst; [discriminate|]. clear F. cbn in *.
    match goal with F : wireoff _ _ _ _ |- _ => inversion F; subst; [discriminate|]; clear F end. cbn in *.
    match goal with F : wireoff _ _ [] _ |- _ => inversion F; subst; clear F end.
    wires. reflexivity. }
  eapply sm_le; [apply sm_struct; sfield; [apply sm_i32|]; sfield; [apply sm_str, Tt|apply sms_nil]|lia].
Qed.
Lemma invalid_small : forall J x what why w, why = s_divide \/ why = s_operation ->
  wireof x (TyStruct invalid_name invalid_ms) (mk_invalid what why) w -> sm J 300 (TyStruct invalid_name invalid_ms) w.
Proof.
  intros J x what why w Hw Ww.
  inversion Ww as [| | | | | | | | | | | |? ? ? ? ? ? F]; subst. cbn in F.
  inversion F; subst; [discriminate|]. clear F. cbn in *.
  match goal with F : wireoff _ _ _ _ |- _ => inversion F; subst; [discriminate|]; clear F end. cbn in *.
  match goal with F : wireoff _ _ [] _ |- _ => inversion F; subst; clear F end.
  wires.
  eapply sm_le; [apply sm_struct; sfield; [apply sm_i32|]; sfield; [|apply sms_nil]|].
  - apply sm_ascii. destruct Hw as [-> | ->]; reflexivity.
  - destruct Hw as [-> | ->]; vm_compute; lia.
Qed.
Lemma reply_small : forall J x f p vals attrs p' rf, In f calculator ->
  num_handle p (fn_name f) vals = ((attrs, None), p') -> reply x f attrs rf -> small J (result_ty f) (VStruct rf).
Proof.
  intros J x f p vals attrs p' rf Hf E Rp. unfold num_handle in E. destruct (numerals p) eqn:Ll; [|discriminate].
  unfold safe_handle in E. destruct (fits p) eqn:F; [|discriminate].
  assert (One : forall n ms i w, named_mem ms i = true -> sm J 300 (mem_ty ms i) w -> small J (TyStruct n ms) (VStruct [(i, w)])).
  { intros n ms i w Nm Sw. eapply small_of; [apply sm_struct, sms_cons; [exact Nm|exact Sw|apply sms_nil]|lia]. }
  assert (Nil : forall n ms, small J (TyStruct n ms) (VStruct [])) by (intros; eapply small_of; [apply sm_struct, sms_nil|lia]).
  assert (Num : forall t z, sm J 300 t (VI32 z)) by (intros t z; eapply sm_le; [apply sm_i32|lia]).
  destruct Hf as [<-|[<-|[<-|[<-|[<-|[]]]]]].
  - change (tut_handle p (fn_name f_getStruct) vals) with
      (match vals with [AInt32 key] => (([(0, h_GetStruct p key)], @None bytes), p) | _ => (([], Some s_panic), p) end) in E.
    destruct vals as [|[| | | | | |k| | | | | | | | | | | | | | | | | |] []]; try discriminate. injection E as <- <-.
    inversion Rp as [m w [[] _]|t w _ Et Ww|t N Et A|N Et]; subst; [| |discriminate].
    + cbn in Et. injection Et as <-. change (attribute _ 0) with (log_get p k) in Ww.
      destruct (get_fits p k F) as [G|G]; [rewrite G in Ww; inversion Ww|].
      destruct (num_get p k Ll) as [G'|G']; [rewrite G' in Ww; inversion Ww|].
      apply One; [reflexivity|]. eapply entry_small; eassumption.
    + apply Nil.
  - inversion Rp as [m w [[] _]|t w _ Et Ww|t N Et A|N Et]; subst; try discriminate; apply Nil.
  - change (tut_handle p (fn_name f_add) vals) with
      (match vals with [AInt32 a; AInt32 b] => (([(0, AInt32 (h_Add a b))], @None bytes), p) | _ => (([], Some s_panic), p) end) in E.
    destruct vals as [|[| | | | | |a| | | | | | | | | | | | | | | | | |] [|[| | | | | |b| | | | | | | | | | | | | | | | | |] []]]; try discriminate.
    injection E as <- <-.
    inversion Rp as [m w [[] _]|t w _ Et Ww|t N Et A|N Et]; subst; [| |discriminate]; cbn in Et; injection Et as <-.
    + inversion Ww; subst. apply One; [reflexivity|apply Num].
    + destruct A as [(D & _)|(tag & n & cs & D & _)]; discriminate.
  - change (tut_handle p (fn_name f_calculate) vals) with
      (match vals with
       | [AInt32 logid; w] =>
         if wraps 32 logid =? logid then
           match h_Calculate p logid w with
           | Ok (val, ouch, p') => (([(0, AInt32 val); (1, ouch)], @None bytes), p')
           | _ => (([], Some s_panic), p)
           end
         else (([], Some s_panic), p)
       | _ => (([], Some s_panic), p)
       end) in E.
    destruct vals as [|[| | | | | |id| | | | | | | | | | | | | | | | | |] [|w []]]; try discriminate.
    destruct (wraps 32 id =? id); [|discriminate].
    destruct (h_Calculate p id w) as [[[val ouch] q]| |] eqn:C; try discriminate. injection E as <- <-.
    apply calculate_cases in C. destruct C as [V C].
    inversion Rp as [m w' [[<-|[]] Nm] _ Ww|t w' _ Et Ww|t N Et A|N Et]; subst; try discriminate.
    + change (attribute _ (m_id _)) with ouch in *. destruct C as [[-> _]|(_ & _ & what & why & -> & W & Y)]; [destruct (Nm eq_refl)|].
      apply One; [reflexivity|]. eapply invalid_small; eassumption.
    + cbn in Et. injection Et as <-. inversion Ww; subst. apply One; [reflexivity|apply Num].
    + cbn in Et. injection Et as <-. destruct A as [(D & _)|(tag & n & cs & D & _)]; discriminate.
  - inversion Rp as [m w [[] _]|t w _ Et Ww|t N Et A|N Et]; subst; try discriminate; apply Nil.
Qed.
Lemma args_small : forall J x q f args wv, asks q (f, args) -> remarked J args ->
  wireof x (TyStruct (args_name f) (fn_args f)) (args_val f args) wv -> small J (args_ty f) wv.
Proof.
  intros J x q f args wv A B W.
  assert (Cons : forall n m ms i z fs, named_mem ms i = true -> sms J m ms fs -> (60 + 21 + m <= n)%nat -> sms J n ms ((i, VI32 z) :: fs)).
  { intros n m ms i z fs Nm Sf Hn. eapply sms_le; [apply sms_cons; [exact Nm|apply sm_i32|exact Sf]|exact Hn]. }
  assert (Nil : forall ms, sms J 2 ms []) by apply sms_nil.
  inversion A as [|a b Ha Hb|id op a b addr fc comment Hi Ho Ha Hb Bc Lc|k Hk]; subst.
  - inversion W as [| | | | | | | | | | | |? ? ? ? ? ? F]; subst. cbn in F. inversion F; subst.
    eapply small_of; [apply sm_struct, Nil|lia].
  - inversion W as [| | | | | | | | | | | |? ? ? ? ? ? F]; subst. cbn in F.
    inversion F; subst; [discriminate|]. clear F. cbn in *.
    match goal with F : wireoff _ _ _ _ |- _ => inversion F; subst; [discriminate|]; clear F end. cbn in *.
    match goal with F : wireoff _ _ [] _ |- _ => inversion F; subst; clear F end.
    wires. eapply small_of; [apply sm_struct; eapply Cons; [reflexivity|eapply Cons; [reflexivity|apply Nil|apply le_n]|apply le_n]|lia].
  - destruct (B addr work_name fc _ comment (or_intror (or_introl eq_refl)) ltac:(cbn; auto 8)) as [Tc Qc].
    assert (Com : sms J 2062 work_ms [(4, VStr comment)]).
    { eapply sms_le; [apply sms_cons; [reflexivity|apply sm_str, Tc|apply Nil]|lia]. }
    inversion W as [| | | | | | | | | | | |? ? ? ? ? ? F]; subst. cbn [sorted_members fn_args f_calculate insert_m m_id Z.ltb Z.compare Pos.compare Pos.compare_cont] in F.
    inversion F as [|? ? ? ? E|? ? ? ? ? E I1 W1 F1]; subst; [discriminate|]. clear F.
    inversion F1 as [|? ? ? ? E2|? ? ? ? ? E2 I2 W2 F2]; subst; [discriminate|]. clear F1.
    inversion F2; subst; clear F2. inversion W1; subst. clear W1.
    inversion W2 as [| | | | | | | | | | | |? ? ? ? ? ? F]; subst. clear W2.
    change (sorted_members work_ms) with work_ms in F. unfold work_ms in F.
    assert (Arg : forall gs, sms J 2400 work_ms gs -> small J (args_ty f_calculate) (VStruct [(1, VI32 id); (2, VStruct gs)])).
    { intros gs Sf. eapply small_of; [apply sm_struct; eapply Cons; [reflexivity|apply sms_cons; [reflexivity|apply sm_struct, Sf|apply Nil]|apply le_n]|lia]. }
    inversion F as [|? ? ? ? E3|? ? ? ? ? E3 I3 W3 F3]; subst; [discriminate|]. clear F.
    inversion F3 as [|? ? ? ? E4|? ? ? ? ? E4 I4 W4 F4]; subst; [discriminate|]. clear F3.
    inversion W3; subst. inversion W4; subst. clear W3 W4.
    assert (Fin : forall z ks, ks = [] \/ ks = [(4, VStr comment)] ->
      forall gs, gs = ks \/ gs = (3, VI32 z) :: ks -> sms J 2143 work_ms gs).
    { intros z ks Hk0 gs Hgs. assert (S1 : sms J 2062 work_ms ks).
      { destruct Hk0 as [-> | ->]; [eapply sms_le; [apply Nil|lia]|exact Com]. }
      destruct Hgs as [-> | ->]; [eapply sms_le; [exact S1|lia]|eapply Cons; [reflexivity|exact S1|lia]]. }
    apply Arg. apply (Cons _ 2224%nat); [reflexivity|apply (Cons _ 2143%nat); [reflexivity| |apply Nat.leb_le; reflexivity]|apply Nat.leb_le; reflexivity].
    inversion F4 as [|? ? ? ? E5 F5|? ? ? ? ? E5 I5 W5 F5]; subst; clear F4.
    + inversion F5 as [|? ? ? ? E6 F6|? ? ? ? ? E6 I6 W6 F6]; subst; clear F5; inversion F6; subst;
        [|inversion W6; subst]; (eapply (Fin 0); [|left; reflexivity]); auto.
    + inversion W5; subst. inversion F5 as [|? ? ? ? E6 F6|? ? ? ? ? E6 I6 W6 F6]; subst; clear F5; inversion F6; subst;
        [|inversion W6; subst]; (eapply Fin; [|right; reflexivity]); auto.
  - inversion W as [| | | | | | | | | | | |? ? ? ? ? ? F]; subst. cbn in F.
    inversion F; subst; [discriminate|]. clear F. cbn in *.
    match goal with F : wireoff _ _ [] _ |- _ => inversion F; subst; clear F end.
    wires. eapply small_of; [apply sm_struct; eapply Cons; [reflexivity|apply Nil|apply le_n]|lia].
Qed.
Lemma asked_small : forall J x qs l, Forall2 asks qs l -> (forall f args, In (f, args) l -> remarked J args) ->
  forall f args, In (f, args) l -> forall wv,
  wireof x (TyStruct (args_name f) (fn_args f)) (args_val f args) wv -> small J (args_ty f) wv.
Proof.
  intros J x qs l A. induction A as [|q [g ar] qs l Hq A IH]; intros B f args H wv W; [destruct H|].
  destruct H as [E|H].
  - injection E as -> ->. eapply args_small; [exact Hq|apply (B f args); left; reflexivity|exact W].
  - eapply IH; [intros h a Ha; apply (B h a); right; exact Ha|exact H|exact W].
Qed.
(** The handlers never fail on what the client asks. *)
Lemma asked_served : forall q f args vals p, asks q (f, args) -> Forall2 same args vals ->
  exists attrs p', tut_handle p (fn_name f) vals = ((attrs, None), p').
Proof.
  intros q f args vals p A F.
  inversion A as [|a b Ha Hb|id op a b addr fc comment Hi Ho Ha Hb Bc Lc|k Hk]; subst; clear A.
  - eexists _, _. reflexivity.
  - inversion F as [|? v1 ? ? S1 F1]; subst. inversion F1 as [|? v2 ? ? S2 F2]; subst. inversion F2; subst.
    apply scalar_same in S1, S2; try reflexivity. subst. eexists _, _. reflexivity.
  - inversion F as [|? v1 ? ? S1 F1]; subst. inversion F1 as [|? v2 ? ? S2 F2]; subst. inversion F2; subst.
    apply scalar_same in S1; [|reflexivity]. apply struct_same in S2;
      [|cbn; nodup|repeat constructor]. destruct S2 as (ad' & fc' & ->). subst v1.
    fold (work ad' fc' a b op comment). rewrite calculate_eq by exact Hi. cbv zeta.
    repeat match goal with |- context [if ?c then _ else _] => destruct c end; eexists _, _; reflexivity.
  - inversion F as [|? v1 ? ? S1 F1]; subst. inversion F1; subst.
    apply scalar_same in S1; try reflexivity. subst. eexists _, _. reflexivity.
Qed.

(** As C102_json_partial, over TSimpleJSONProtocol; the exceptions of the tutorial are declared ones, which it keeps (C113).
    Missing as there. *)
Theorem C102_simple_partial : forall J x M cf fuel errtext qs l p h,
  orders x -> (10 <= fuel)%nat -> Forall2 asks qs l -> (forall f args, In (f, args) l -> remarked J args) ->
  fits p = true -> numerals p = true -> logged p h ->
  exists rs st a h',
    calls (simpleR J) (simpleW J) nop sfreshR sfreshW x M cf fuel errtext tut_handle calculator jdrain jfeed
      (fun _ b => [b]) 0 l (sstart p) = Ok (rs, st) /\
    dialogue h qs a h' /\ Forall2 shows a rs /\ logged (pr_h st) h' /\ fits (pr_h st) = true /\ numerals (pr_h st) = true.
Proof.
  intros J x M cf fuel errtext qs l p h Ho Hf A B Fp Lp L.
  destruct (C113_small_calls_partial tlog J x M cf fuel errtext tut_handle num_ok calculator l p) as (rs & st & E & Sv & Fq & Lq); try assumption.
  - intros f If. split; [apply calculator_ok, If|].
    assert (S : forall n, forallb (fun c => (32 <=? c) && (c <? 127) && negb (c =? 34) && negb (c =? 92) && negb (c =? 60) &&
      negb (c =? 62) && negb (c =? 38)) n = true -> (2 + length n <= 1000)%nat ->
      text_ok J Strict n /\ (length (json_quote (j_style J) n) <= 1000)%nat).
    { intros n Hn Hl. destruct (sm_ascii J n Hn) as (P & _ & Lq). split; [exact P|]. cbn [stext] in Lq. unfold bytes in *. lia. }
    destruct If as [<-|[<-|[<-|[<-|[<-|[]]]]]]; apply S; vm_compute; try reflexivity; lia.
  - exact calculator_names.
  - split; assumption.
  - intros f args q vals Hl Hq Fv. destruct (asked_ok x _ _ A f args Hl) as (If & _).
    assert (Ask : exists qu, asks qu (f, args)).
    { clear - A Hl. induction A as [|qu [g ar] qs l Hq A IH]; [destruct Hl|]. destruct Hl as [E|Hl]; [injection E as -> ->; eauto|auto]. }
    destruct Ask as [qu Ask]. destruct (asked_served qu f args vals q Ask Fv) as (attrs & q' & Eh).
    pose proof (numok_keeps q (fn_name f) vals Hq) as Hq'. rewrite Eh in *. cbn [snd] in Hq'. split; [exact Hq'|].
    assert (En : num_handle q (fn_name f) vals = ((attrs, None), q')) by (rewrite <- num_agree by exact Hq; exact Eh).
    assert (E' := En). unfold num_handle in E'. destruct (numerals q); [|discriminate].
    destruct (safe_results x f q vals attrs q' If E') as [K N]. split; [exact K|].
    intros rf Rp. destruct (N rf Rp). split; [eapply reply_small; eassumption|lia].
  - intros f args H. destruct (asked_ok x _ _ A f args H) as (If & One & Ka & W).
    split; [exact If|]. split; [exact One|]. split; [exact Ka|]. intros wv Ww. destruct (W wv Ww).
    split; [eapply asked_small; eassumption|lia].
  - destruct (steps _ _ _ _ _ _ A L Sv) as (a & h' & D & Sh & L').
    exists rs, st, a, h'. auto 8.
Qed.
Print Assumptions C102_simple_partial.
Lemma perform_remarked : forall J f args, In (f, args) Perform -> remarked J args.
Proof.
  intros J f args H. destruct (plain_strict J [] (Forall_nil _)) as [T Q]. unfold remarked. intros ad n fc attrs s Ia Is.
  assert (s = []) as ->.
  { destruct H as [H|[H|[H|[H|[H|[]]]]]]; injection H as <- <-; cbn in Ia;
      repeat (destruct Ia as [Ia|Ia]; [try discriminate|]); try contradiction; injection Ia as <- <- <- <-; cbn in Is;
      repeat (destruct Is as [Is|Is]; [try discriminate|]); try contradiction; injection Is; auto. }
  split; [exact T|]. unfold bytes in *. rewrite Q. cbn. lia.
Qed.
Example C102_simple_ex :
  (forall f args, In (f, args) Perform -> remarked J0 args) /\
  remarked J0 [AInt32 1; AStruct 1 work_name (fc_of work_ms) [(1, AInt32 6); (2, AInt32 7); (3, mk_op 3); (4, AStr remark)]] /\
  fits [] = true /\ numerals [] = true /\ logged [] [] /\
  (exists rs st, calls (simpleR J0) (simpleW J0) nop sfreshR sfreshW ext0 64 5 40 errtext0 tut_handle calculator jdrain jfeed
     (fun _ b => [b]) 0 Perform (sstart []) = Ok (rs, st) /\
     Forall2 shows [Done; Number 2; Refused 4 "Cannot divide by 0"; Number 5; Entry 1 5] rs).
Proof.
  split; [exact (perform_remarked J0)|]. split.
  { unfold remarked. intros ad n fc attrs s Ia Is. destruct Ia as [D|[Ia|[]]]; [discriminate|]. injection Ia as <- <- <- <-.
    destruct Is as [D|[D|[D|[Is|[]]]]]; try discriminate. injection Is as <-.
    split; [apply strict_of; reflexivity|vm_compute; lia]. }
  split; [reflexivity|]. split; [reflexivity|]. split; [split; [intros k v H; inversion H|intros k _; reflexivity]|].
  eexists _, _. split; [vm_compute; reflexivity|].
  repeat constructor; cbn; eauto 8. eexists _, _, _. split; [reflexivity|].
  apply (dec_pos [53]); [discriminate|]. repeat constructor; lia.
Qed.

(** ** C112: the program as client and as server, both told to use simplejson and no frames *)
Theorem C112_simple_talk_partial : forall gc gs oc os n tc ts pc ps,
  In (DPerform tc pc) (fst (main gc oc n)) -> In (DServe ts ps) (fst (main gs os n)) ->
  g_protocol gc = lit "simplejson" -> g_protocol gs = lit "simplejson" -> g_framed gc = false -> g_framed gs = false ->
  tc = TFPlain /\ ts = TFPlain /\ pc = MSimpleJSON /\ ps = MSimpleJSON /\
  forall J x M cf fuel errtext p h, orders x -> (10 <= fuel)%nat -> fits p = true -> numerals p = true -> logged p h ->
    exists rs st, calls (simpleR J) (simpleW J) nop sfreshR sfreshW x M cf fuel errtext tut_handle calculator jdrain jfeed
        (fun _ b => [b]) 0 Perform (sstart p) = Ok (rs, st) /\
      Forall2 shows [Done; Number 2; Refused 4 "Cannot divide by 0"; Number 5; Entry 1 5] rs /\
      logged (pr_h st) ((1, 5) :: h).
Proof.
  intros gc gs oc os n tc ts pc ps Ic Is Pc Ps Fc Fs.
  apply (C112_only gc oc n tc pc) in Ic. apply (C112_only gs os n ts ps) in Is.
  destruct Ic as (sc & fc & (_ & _ & _ & Pc' & Fc') & Nc & Wc). destruct Is as (ss & f2 & (_ & _ & _ & Ps' & Fs') & Ns & Ws).
  rewrite Fc in Fc'. rewrite Fs in Fs'. subst fc f2.
  split; [inversion Wc; reflexivity|]. split; [inversion Ws; reflexivity|].
  assert (N : forall s p, lit "simplejson" = lit s -> named s p -> p = MSimpleJSON).
  { intros s p E H. inversion H; subst; try reflexivity; vm_compute in E; discriminate. }
  split; [eapply N; [rewrite <- Pc; exact Pc'|exact Nc]|]. split; [eapply N; [rewrite <- Ps; exact Ps'|exact Ns]|].
  intros J x M cf fuel errtext p h Ho Hf Fp Lp L.
  destruct (C102_simple_partial J x M cf fuel errtext _ _ p h Ho Hf perform_asks (perform_remarked J) Fp Lp L)
    as (rs & st & a & h' & E & D & Sh & L' & _).
  destruct (perform_answers _ _ _ D) as [-> ->]. exists rs, st. split; [exact E|]. split; assumption.
Qed.
Print Assumptions C112_simple_talk_partial.
Example C112_simple_case :
  let gc := MkFlags true false (lit "simplejson") false false false in
  let gs := MkFlags false true (lit "simplejson") false false false in
  main gc quiet 1 = ([DPerform TFPlain MSimpleJSON], Exits 0) /\
  main gs quiet 2 = ([DServe TFPlain MSimpleJSON; DServe TFPlain MSimpleJSON], Runs).
Proof. split; reflexivity. Qed.
