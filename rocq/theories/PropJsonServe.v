(** C117: a server over TJSONProtocol. *)
From Coq Require Import String.
From Coq Require Import ZArith List Bool Lia.
From Coq Require Import ZifyBool ZifyNat.
From Verif Require Import Base Arith Errors Transport TransportProofs Proto Values WfDec Codec BufIO BufRead BufReadProofs Strconv JsonText JsonTextProofs
  Json JsonSpec JsonRead JsonReadVal JsonWrite JsonForm.
From Verif Require Import TField GoVal Compare TMap Gen GenSpec GenProofs GenInst GenRound PropGen PropJson
  AppExc AppExcProofs PropRpc Names Rpc RpcProofs PropService RpcInv PropJsonRpc Serve ServeProofs PropServe Tutorial.
Import ListNotations.
Open Scope list_scope.
Open Scope Z_scope.
Local Notation length := List.length.

(** ** Requests and services *)

(** A request as a client over TJSONProtocol sends it, and an answer. *)
Inductive jsent (J : jenv) (x : ext) : request -> bytes -> Prop :=
| js_known f args seq w : wireof x (TyStruct (args_name f) (fn_args f)) (args_val f args) w ->
    jsent J x (Known f args seq) (jmsg J (fn_name f) CALL seq w)
| js_unknown name t seq fl : jsent J x (Unknown name t seq fl) (jmsg J name t seq (VStruct fl)).
Definition jtold (J : jenv) (a : answer) : bytes := jmsg J (a_name a) (a_kind a) (a_seq a) (VStruct (a_body a)).

(** Values TJSONProtocol keeps (C59). *)
Definition jkeeps (J : jenv) (k : mode) (v : tval) : Prop := plain_val J k v /\ canon v = v.
Definition jrequest_ok (J : jenv) (k : mode) (x : ext) (fuel : nat) (fs : list func) (r : request) : Prop :=
  match r with
  | Known f args seq => In f fs /\ kept_args x f args /\ in_s 32 seq /\
      forall w, wireof x (TyStruct (args_name f) (fn_args f)) (args_val f args) w -> jkeeps J k w /\ (need w <= fuel)%nat
  | Unknown name t seq fl => (forall f, In f fs -> fn_name f <> name) /\
      (t = CALL \/ t = REPLY \/ t = EXCEPTION) /\ text_ok J k name /\ in_s 32 seq /\
      wf (VStruct fl) /\ jkeeps J k (VStruct fl) /\ (need (VStruct fl) <= fuel)%nat /\
      exc_ok (MkExc UNKNOWN_METHOD (s_unknown ++ name))
  end.
(** The names of the functions are texts; members are not binary; the handler returns what generated code can write. *)
Definition jservice_ok {H} (J : jenv) (k : mode) (x : ext) (fuel : nat)
    (handle : H -> bytes -> list any -> (list (Z * any) * option bytes) * H) (fs : list func) : Prop :=
  orders x /\ (forall f, In f fs -> func_ok f /\ text_ok J k (fn_name f)) /\ NoDup (map fn_name fs) /\
  (forall f m, In f fs -> In m (fn_args f ++ result_members f) -> no_binary (m_ty m)) /\
  (forall f h vals attrs h', In f fs -> handle h (fn_name f) vals = ((attrs, None), h') ->
     (forall m, chosen f attrs m -> kept x (m_ty m) (attribute attrs (m_id m)) \/
                                    absent (m_ty m) (attribute attrs (m_id m))) /\
     forall rf, reply x f attrs rf -> (need (VStruct rf) <= fuel)%nat) /\
  (forall f h vals attrs text h', In f fs -> handle h (fn_name f) vals = ((attrs, Some text), h') ->
     exc_ok (MkExc INTERNAL_ERROR (s_internal ++ fn_name f ++ s_colon ++ text))).

Definition jheld (J : jenv) (k : mode) (x : ext) (s : jr) (rs : list request) : Prop :=
  exists bs, Forall2 (jsent J x) rs bs /\ jir k s (concat bs).
Lemma jheld_nows : forall J x rs bs, Forall2 (jsent J x) rs bs -> nows (concat bs).
Proof.
  intros J x rs bs F. destruct F as [|r b rs bs S F]; [exact I|]. destruct S; unfold jmsg, message_text; cbn; reflexivity.
Qed.

Theorem jstep : forall H J k x M cf fuel errtext
    (handle : H -> bytes -> list any -> (list (Z * any) * option bytes) * H) fs,
  k <> Loose -> jservice_ok J k x fuel handle fs ->
  step_ok (jsonR J) (jsonW J) nop x M cf fuel errtext handle fs (jrequest_ok J k x fuel fs) (jheld J k x) jow (jtold J).
Proof.
  intros H J k x M cf fuel errtext handle fs Kl (Ho & Fok & Nd & Nb & Hok & Tok) r rs h si so o K (bs & Sn & Hi) Hw.
  inversion Sn as [|? b ? bs' S1 S2]; subst. cbn [concat] in Hi.
  pose proof (jheld_nows _ _ _ _ S2) as Nw.
  destruct S1 as [f args seq w Wv|name t seq fl]; cbn [jrequest_ok] in K.
  - destruct K as (Hf & [La Ka] & Hs & N). destruct (N w Wv) as [[Pw Cw] Nd'].
    assert (Aok : args_ok x fuel false false (jokv J k (fun _ => True)) f args).
    { split; [exact La|]. split; [intros _; apply nb_struct; intros m Hm; eapply Nb; [exact Hf|apply in_app_iff; left; exact Hm]|].
      split; [exact Ka|]. intros w' W'. destruct (N w' W') as [[P' C'] N']. split; [split; [exact P'|split; [exact C'|exact I]]|exact N']. }
    destruct (process_valid (jsonR J) (jsonW J) nop (fun s => s) x M cf fuel errtext handle false false false
      jow jow' (jir k) (jir' k) (jenc J) (message_text J) [93] (jokm J k (fun _ => True)) exc_ok (jokv J k (fun _ => True))
      (fun f => func_ok f /\ text_ok J k (fn_name f)) nows
      (jow_val J) (jow_exc J) (fun name t seq s o Ht _ => jow_msg J name t seq s o Ht I) (jow_end J) jow_nop
      (fun f H => proj1 H) (fun f q H Hq => conj (proj2 H) (conj Hq I)) Ho (jenc J) (message_text J) [93]
      (jir_msg J k Kl (fun _ => True) (fun _ => True)) (jir_val J k Kl (fun _ => True)) (jir_end J k)
      fs f args h si so o seq w (concat bs') Fok Nd) as (vals & p & mt & body & P & Pi & Fv & Po & Ph & [Pe Ps] & Pm); try assumption.
    + intros vals _. unfold does_okw. destruct (handle h (fn_name f) vals) as [[attrs [text|]] h1] eqn:E.
      * eapply Tok; eassumption.
      * destruct (Hok f h vals attrs h1 Hf E) as [K1 N1]. split; [|split; assumption].
        intros m Hm _. eapply Nb; [exact Hf|apply in_app_iff; right; exact Hm].
    + unfold jmsg in Hi. rewrite <- !app_assoc in Hi. exact Hi.
    + destruct (handle h (fn_name f) vals) as [[attrs [text|]] h1] eqn:Eh; cbn [fst snd] in *; destruct Pm as [-> Pm].
      * exists p, (MkAnswer (fn_name f) EXCEPTION seq body). split; [exact P|].
        replace (p_success p) with false by (destruct (p_success p); [discriminate (proj1 Ps eq_refl)|reflexivity]).
        rewrite Ph, Pm. split; [eapply as_failed; eassumption|]. split; [exists bs'; auto|]. rewrite <- Pm. exact Po.
      * exists p, (MkAnswer (fn_name f) REPLY seq body). split; [exact P|].
        rewrite (proj2 Ps eq_refl), Ph. split; [eapply as_reply; eassumption|]. split; [exists bs'; auto|]. exact Po.
  - destruct K as (Hn & Ht & Tn & Hs & Hwf & [Pl Ca] & Nf & Ke).
    destruct (process_unknown (jsonR J) (jsonW J) nop x M cf fuel errtext handle false false
      jow jow' (jir k) (jir' k) (jenc J) (message_text J) [93] (jokm J k (fun _ => True)) exc_ok (jokv J k (fun _ => True)) nows
      (jow_exc J) (fun name t seq s o Ht _ => jow_msg J name t seq s o Ht I) (jow_end J) jow_nop (jenc J) (message_text J) [93]
      (jir_msg J k Kl (fun _ => True) (fun _ => True)) (jir_val J k Kl (fun _ => True)) (jir_end J k)
      fs h si so o name t seq fl (concat bs') Hn Ht (conj Tn (conj Hs I)) Hwf (conj Pl (conj Ca I)) Nf Ke)
      as (p & P & Pi & Ph & Ps & _ & Po); try assumption.
    + unfold jmsg in Hi. rewrite <- !app_assoc in Hi. exact Hi.
    + exists p, (MkAnswer name EXCEPTION seq (exc_fields (MkExc UNKNOWN_METHOD (s_unknown ++ name)))). split; [exact P|].
      rewrite Ph, Ps. split; [constructor|]. split; [exists bs'; auto|exact Po].
Qed.

(** At the end of the input. *)
Lemma jend : forall J k x, end_ok (jsonR J) (jheld J k x).
Proof.
  intros J k x [b c] (bs & F & (E & p & V)). inversion F; subst. cbn [fst snd concat] in *. subst c.
  pose proof (v_con _ _ _ _ _ V) as Vc. cbn in Vc. apply app_eq_nil in Vc. destruct Vc as [Vu Vr].
  apply (content_nil _ (v_ben _ _ _ _ _ V)) in Vr. pose proof (v_err _ _ _ _ _ V) as Ve. pose proof (v_room _ _ _ _ _ V) as Vm.
  destruct b as [bf un af er tr]. cbn [b_un b_rt b_err] in *. subst un tr er.
  eexists _, _, _. split; [cbn -[buf_size]; reflexivity|]. exists []. split; [constructor|].
  split; [reflexivity|]. exists p. constructor; cbn -[buf_size]; try reflexivity.
  - constructor.
  - intros _. constructor; [reflexivity|constructor].
  - exact Vm.
Qed.

(** ** C117 *)

(** One connection, as C103: the requests, in pieces TJSONProtocol can read (C60), are answered in order, up to and
    including the first that fails; the server then ends. *)
Theorem C117_session : forall H J k x M cf fuel errtext
    (handle : H -> bytes -> list any -> (list (Z * any) * option bytes) * H) fs stopped rounds reqs bs h r,
  k <> Loose -> jservice_ok J k x fuel handle fs -> Forall (jrequest_ok J k x fuel fs) reqs ->
  Forall2 (jsent J x) reqs bs -> readable k (concat bs) [] r -> (length reqs < rounds)%nat ->
  exists h' si' out left,
    serve_loop x M cf fuel errtext handle fs stopped (jsonR J) (jsonW J) nop rounds 0 h (json_r r) (json_w (MkWt [] [])) =
      Ok (h', si', json_w (MkWt (concat (map (jtold J) out)) [])) /\
    session x handle h reqs out h' left /\
    exists bs', Forall2 (jsent J x) left bs' /\ holds (fst si') (concat bs').
Proof.
  intros H J k x M cf fuel errtext handle fs stopped rounds reqs bs h r Kl Sv Kr F R L.
  destruct (loop_session (jsonR J) (jsonW J) nop x M cf fuel errtext handle fs _ _ _ _
    (jstep H J k x M cf fuel errtext handle fs Kl Sv) (jend J k x) stopped reqs rounds 0%nat h (json_r r) (json_w (MkWt [] [])) [])
    as (h' & si' & so' & out & left & E & Se & Ho & (bs' & F' & (_ & p & V))); try assumption; try reflexivity.
  - exists bs. split; [exact F|]. split; [reflexivity|]. exists 0. apply readable_view. exact R.
  - cbn [app] in Ho. unfold jow in Ho. subst so'. exists h', si', out, left. split; [exact E|]. split; [exact Se|].
    exists bs'. split; [exact F'|]. apply view_holds in V. rewrite app_nil_r in V. exact V.
Qed.
Print Assumptions C117_session.

(** Requests that each come in a Read of their own, of at most [n] bytes. *)
Lemma bound_ok : forall J x n rs bs, Forall2 (jsent J x) rs bs -> forall pre prev, last (prev :: pre) 0 <> 123 ->
  Forall (fun i => tpos (Chunks n) prev (pre ++ concat bs) i = false) (BufReadProofs.ends (length pre) (pieces_rt bs)).
Proof.
  intros J x n rs bs F. induction F as [|r b rs bs S F IH]; intros pre prev Hl.
  - cbn. constructor; [|constructor]. apply tpos_ge. rewrite app_nil_r. apply le_n.
  - assert (exists b', b = 91 :: b' ++ [93]) as [b' Eb].
    { destruct S; unfold jmsg, message_text; cbn [app]; rewrite !app_assoc; eexists; reflexivity. }
    cbn [pieces_rt map BufReadProofs.ends]. constructor.
    + unfold tpos. cbn [concat]. rewrite nth_error_app2, Nat.sub_diag by apply le_n. rewrite Eb. cbn [app nth_error].
      replace (nth (length pre) (prev :: pre ++ 91 :: (b' ++ [93]) ++ concat bs) 0) with (last (prev :: pre) 0).
      2:{ clear. revert prev. induction pre as [|c pre IH]; intro prev; [reflexivity|].
          change (last (prev :: c :: pre) 0) with (last (c :: pre) 0). rewrite IH. reflexivity. }
      revert Hl. generalize (last (prev :: pre) 0). intros p Hp. unfold tight, behind. cbn.
      destruct (p =? 123) eqn:E; [lia|]. rewrite !andb_false_r. reflexivity.
    + cbn [fst]. rewrite <- app_length. cbn [concat]. rewrite app_assoc. apply IH.
      rewrite Eb, app_comm_cons, !app_comm_cons, app_assoc. rewrite last_last. discriminate.
Qed.
Theorem C117_pieces : forall H J n x M cf fuel errtext
    (handle : H -> bytes -> list any -> (list (Z * any) * option bytes) * H) fs stopped reqs bs h,
  (n <= 4000)%nat -> jservice_ok J (Chunks n) x fuel handle fs -> Forall (jrequest_ok J (Chunks n) x fuel fs) reqs ->
  Forall2 (jsent J x) reqs bs -> Forall (fun b => (length b <= n)%nat) bs ->
  exists h' si' out left,
    serve_loop x M cf fuel errtext handle fs stopped (jsonR J) (jsonW J) nop (S (length reqs)) 0 h
      (json_r (map (fun b => (b, None)) bs)) (json_w (MkWt [] [])) =
      Ok (h', si', json_w (MkWt (concat (map (jtold J) out)) [])) /\
    session x handle h reqs out h' left.
Proof.
  intros H J n x M cf fuel errtext handle fs stopped reqs bs h Hn Sv Kr F L.
  destruct (C117_session H J (Chunks n) x M cf fuel errtext handle fs stopped (S (length reqs)) reqs bs h (pieces_rt bs))
    as (h' & si' & out & left & E & Se & _); try assumption; try discriminate.
  - split; [|split; [|split]].
    + unfold benign, pieces_rt. apply Forall_map. clear - F. induction F as [|r b rs bs S F IH]; constructor; [|exact IH].
      cbn. split; [|reflexivity]. destruct S; unfold jmsg, message_text; discriminate.
    + rewrite app_nil_r. unfold content, pieces_rt. rewrite map_map. cbn. rewrite map_id. reflexivity.
    + split; [exact Hn|]. unfold pieces_rt. apply Forall_map. exact L.
    + apply (bound_ok J x n reqs bs F [] 0). discriminate.
  - lia.
  - exists h', si', out, left. split; [exact E|exact Se].
Qed.
Print Assumptions C117_pieces.

(** A request cut elsewhere: the tutorial's server is asked to add 2 and 3.  If the second Read begins with the comma
    behind the name, the connection is closed without an answer; if it begins with the colon before an argument, the
    answer is an exception. *)
Definition served_json (r : rt) : bytes :=
  match serve_loop ext0 64 5 40 errtext0 tut_handle calculator (fun _ => false) (jsonR J0) (jsonW J0) nop 3 0 []
      (json_r r) (json_w (MkWt [] [])) with
  | Ok (_, _, so) => w_out (fst so)
  | _ => [0]
  end.
Theorem C117_cut_refuted : exists m, m = jmsg J0 (lit "add") CALL 7 (VStruct [(1, VI32 2); (2, VI32 3)]) /\
  served_json [(m, None)] = jmsg J0 (lit "add") REPLY 7 (VStruct [(0, VI32 5)]) /\
  (exists a b, m = a ++ b /\ served_json [(a, None); (b, None)] = []) /\
  (exists a b, m = a ++ b /\
     served_json [(a, None); (b, None)] = jmsg J0 (lit "add") EXCEPTION 7 (VStruct (exc_fields (MkExc PROTOCOL_ERROR (lit "err"))))).
Proof.
  eexists. split; [reflexivity|]. split; [vm_compute; reflexivity|]. split.
  - exists (lit "[1,""add"""), (lit ",1,7,{""1"":{""i32"":2},""2"":{""i32"":3}}]"). split; vm_compute; reflexivity.
  - exists (lit "[1,""add"",1,7,{""1"":{""i32"""), (lit ":2},""2"":{""i32"":3}}]").
    split; vm_compute; reflexivity.
Qed.
Print Assumptions C117_cut_refuted.

(** Two calls of add, the second of which fails, in Reads of their own; a third is left. *)
Lemma chunk_text : forall s, forallb (fun c => (0 <=? c) && (c <? 128)) s = true ->
  (length (json_quote (j_style J0) s) + 200 < 4096)%nat -> text_ok J0 (Chunks 200) s.
Proof. intros s H L. split; [apply ascii_utf8, H|exact L]. Qed.
Lemma ex_json_service : jservice_ok J0 (Chunks 200) ext0 40 ex_handle9 ex_fs.
Proof.
  split; [exact ext0_orders|]. split.
  { intros f Hf. split; [apply ex_ok; destruct Hf as [<-|[<-|[]]]; cbn; auto|].
    destruct Hf as [<-|[<-|[]]]; apply chunk_text; [reflexivity|vm_compute; lia|reflexivity|vm_compute; lia]. }
  split; [nodup|]. split.
  { intros f m Hf Hm. destruct Hf as [<-|[<-|[]]]; cbn in Hm;
      repeat (destruct Hm as [<-|Hm]; [cbn; repeat constructor; intros ? [<-|[]]; constructor|]); destruct Hm. }
  split.
  - intros f h vals attrs h' Hf E. destruct (ex9_kept f h vals attrs h' Hf E) as [K N]. split; [exact K|].
    intros rf Rp. apply (N rf Rp).
  - intros f h vals attrs text h' Hf E. apply (ex9_texts f h vals attrs text h' Hf E).
Qed.
Definition ex_json_reqs : list request :=
  [Known ex_add ex_args 1; Known ex_add ex_args 2; Unknown (lit "sub") CALL 9 [(1, VI32 5)]; Known ex_add ex_args 3].
Definition ex_json_wires : list bytes :=
  [jmsg J0 (lit "add") CALL 1 ex_argsw; jmsg J0 (lit "add") CALL 2 ex_argsw; jmsg J0 (lit "sub") CALL 9 (VStruct [(1, VI32 5)]);
   jmsg J0 (lit "add") CALL 3 ex_argsw].


Example C117_case :
  jservice_ok J0 (Chunks 200) ext0 40 ex_handle9 ex_fs /\ Forall (jrequest_ok J0 (Chunks 200) ext0 40 ex_fs) ex_json_reqs /\
  Forall2 (jsent J0 ext0) ex_json_reqs ex_json_wires /\ Forall (fun b => (length b <= 200)%nat) ex_json_wires /\
  match serve_loop ext0 64 5 40 errtext0 ex_handle9 ex_fs (fun _ => false) (jsonR J0) (jsonW J0) nop 5 0 10
      (json_r (map (fun b => (b, None)) ex_json_wires)) (json_w (MkWt [] [])) with
  | Ok (h, _, so) => h = 12 /\ w_out (fst so) = concat (map (jtold J0)
      [MkAnswer (lit "add") REPLY 1 [(0, VI64 42)]; MkAnswer (lit "add") REPLY 2 [(0, VI64 42)];
       MkAnswer (lit "sub") EXCEPTION 9 (exc_fields (MkExc UNKNOWN_METHOD (s_unknown ++ lit "sub")))])
  | _ => False
  end.
Proof.
  split; [exact ex_json_service|]. split; [|split; [|split; [repeat constructor; vm_compute; lia|vm_compute; auto]]].
  - assert (K : forall q, in_s 32 q -> jrequest_ok J0 (Chunks 200) ext0 40 ex_fs (Known ex_add ex_args q)).
    { intros q Hq. split; [cbn; auto|]. split; [exact ex_args_kept|]. split; [exact Hq|].
      intros w Ww. rewrite (wireof_fun _ _ _ _ _ Ww ex_args_wire). split; [|cbn; lia].
      split; [|reflexivity]. cbn. repeat split; try discriminate; apply chunk_text; try reflexivity; vm_compute; lia. }
    constructor; [apply K; unfold in_s; cbn; lia|]. constructor; [apply K; unfold in_s; cbn; lia|].
    constructor; [|constructor; [apply K; unfold in_s; cbn; lia|constructor]].
    split; [intros f [<-|[<-|[]]]; discriminate|]. split; [auto|]. split; [apply chunk_text; [reflexivity|vm_compute; lia]|].
    split; [unfold in_s; cbn; lia|]. split; [cbn; unfold in_s; cbn; repeat split; lia|].
    split; [split; [cbn; repeat split; discriminate|reflexivity]|]. split; [cbn; lia|].
    split; [concrete|]. split; [concrete|vm_compute; reflexivity].
  - constructor; [apply (js_known J0 ext0 ex_add ex_args 1 _ ex_args_wire)|].
    constructor; [apply (js_known J0 ext0 ex_add ex_args 2 _ ex_args_wire)|]. constructor; [apply js_unknown|].
    constructor; [apply (js_known J0 ext0 ex_add ex_args 3 _ ex_args_wire)|constructor].
Qed.
