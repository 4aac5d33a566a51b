(** THttpClient (thttp_client.go). *)
From Coq Require Import ZArith List Bool Lia.
From Coq Require Import ZifyBool ZifyNat.
From Verif Require Import Base Errors Transport Buffer Framed.
Import ListNotations.
Open Scope Z_scope.

(** thttp_client.go:29-35: the body of the response, if there is one, and the request buffer, if
    there is one; the bodies the server has been sent ([h_posts], an observation). *)
Record http : Type := MkHttp { h_resp : option rt; h_buf : option buffer; h_posts : list bytes }.
(** NewTHttpClient (thttp_client.go:70-80) when http.Get gives a response *)
Definition NewTHttpClient (body : rt) : http := MkHttp (Some body) None [].
(** NewTHttpPostClient (thttp_client.go:82-89) *)
Definition NewTHttpPostClient : http := MkHttp None (Some (bNew [])) [].

(** thttp_client.go:96-98 *)
Definition http_is_open (h : http) : bool :=
  match h_resp h, h_buf h with None, None => false | _, _ => true end.
(** thttp_client.go:104-115; [ce] is the result of closing the body; net/http never gives a
    response without a body *)
Definition http_close (ce : option err) (h : http) : option err * http :=
  match h_resp h with
  | Some _ => (ce, MkHttp None (h_buf h) (h_posts h))
  | None => (None, MkHttp None None (h_posts h))
  end.
(** thttp_client.go:117-123, len(buf) = n *)
Definition http_read (n : nat) (h : http) : bytes * option err * http :=
  match h_resp h with
  | None => ([], Some (ETransport NOT_OPEN), h)
  | Some r => let '(d, e, r') := tread n r in
              (d, transport_exc_from_os e, MkHttp (Some r') (h_buf h) (h_posts h))
  end.
(** thttp_client.go:129-132; a nil *bytes.Buffer panics *)
Definition http_write (p : bytes) (h : http) : outcome (Z * option err * http) :=
  match h_buf h with
  | None => Panic
  | Some b => let '(n, e, b') := bWrite p b in Ok (n, e, MkHttp (h_resp h) (Some b') (h_posts h))
  end.
(** http.Post: fails having taken k bytes from the buffer, or sends all of it and gives a status
    and a body.
    Simplification: a server that answers without reading the whole request is not modelled. *)
Inductive post : Type := PostErr (k : nat) (e : err) | PostOk (status : Z) (body : rt).
(** thttp_client.go:134-145; http.NewRequest takes the length of the buffer, which panics for a
    nil *bytes.Buffer *)
Definition http_flush (o : post) (h : http) : outcome (option err * http) :=
  match h_buf h with
  | None => Panic
  | Some b =>
    match o with
    | PostErr k e =>
      let '(_, _, b') := bRead k b in
      Ok (transport_exc_from_os (Some e), MkHttp (h_resp h) (Some b') (h_posts h))
    | PostOk status body =>
      let h' r := MkHttp r (Some (bReset b)) (h_posts h ++ [bBytes b]) in
      if status =? 200 then Ok (None, h' (Some body))
      else Ok (Some (ETransport UNKNOWN_TRANSPORT_EXCEPTION), h' (h_resp h))
    end
  end.

Inductive hop : Type :=
| HRead (n : nat) | HReadAll (n : nat) | HWrite (p : bytes) | HFlush (o : post) | HClose (ce : option err).
Definition http_op (o : hop) (h : http) : outcome (bytes * Z * option err * http) :=
  match o with
  | HRead n => let '(d, e, h') := http_read n h in Ok (d, Z.of_nat (length d), e, h')
  | HReadAll n => let '(c, d, e, h') := read_all_via http_read n n 0 None h in Ok (d, c, e, h')
  | HWrite p => '(n, e, h') <- http_write p h ;; Ok ([], n, e, h')
  | HFlush x => '(e, h') <- http_flush x h ;; Ok ([], 0, e, h')
  | HClose ce => let '(e, h') := http_close ce h in Ok ([], 0, e, h')
  end.
Fixpoint http_run (os : list hop) (h : http) : outcome (list (bytes * Z * option err) * http) :=
  match os with
  | [] => Ok ([], h)
  | o :: os' =>
    '(d, n, e, h1) <- http_op o h ;; '(l, h2) <- http_run os' h1 ;; Ok ((d, n, e) :: l, h2)
  end.

(** ** Lemmas *)
Lemma http_read_frame : forall n h d e h', http_read n h = (d, e, h') ->
  h_buf h' = h_buf h /\ h_posts h' = h_posts h /\ (h_resp h = None -> h_resp h' = None) /\
  (h_resp h <> None -> h_resp h' <> None).
Proof.
  intros n h d e h' H. unfold http_read in H. destruct (h_resp h) as [r|] eqn:R.
  - destruct (tread n r) as [[d1 e1] r1]. injection H as <- <- <-. cbn.
    repeat split; intros; discriminate.
  - injection H as <- <- <-. repeat split; congruence.
Qed.
Lemma http_read_all_frame : forall fuel n got e h c d e' h',
  read_all_via http_read fuel n got e h = (c, d, e', h') ->
  h_buf h' = h_buf h /\ h_posts h' = h_posts h /\ (h_resp h = None -> h_resp h' = None) /\
  (h_resp h <> None -> h_resp h' <> None).
Proof.
  induction fuel as [|f IH]; intros n got e h c d e' h' H.
  - cbn in H. injection H as <- <- <- <-. auto.
  - destruct n as [|n]; cbn [read_all_via] in H; [injection H as <- <- <- <-; auto|].
    destruct (http_read (S n) h) as [[d1 e1] h1] eqn:R.
    destruct (http_read_frame _ _ _ _ _ R) as (A & B & C & D).
    destruct d1 as [|x d1]; [injection H as <- <- <- <-; auto|].
    destruct (read_all_via http_read f _ _ _ h1) as [[[c2 d2] e2] h2] eqn:Q. injection H as <- <- <- <-.
    destruct (IH _ _ _ _ _ _ _ _ Q) as (A' & B' & C' & D').
    repeat split; try congruence; auto.
Qed.

(** The bodies to be posted: for every Flush the bytes written since the one before, given what
    was pending. *)
Fixpoint requests (acc : bytes) (os : list hop) : list bytes * bytes :=
  match os with
  | [] => ([], acc)
  | HWrite p :: os' => requests (acc ++ p) os'
  | HFlush _ :: os' => let '(l, t) := requests [] os' in (acc :: l, t)
  | _ :: os' => requests acc os'
  end.
Definition post_ok (o : hop) : Prop :=
  match o with HFlush (PostErr _ _) => False | HClose _ => False | _ => True end.
Lemma http_run_posts : forall os h b, h_buf h = Some b -> b_ok b -> Forall post_ok os ->
  exists l h' b', http_run os h = Ok (l, h') /\ h_buf h' = Some b' /\ b_ok b' /\
    h_posts h' = h_posts h ++ fst (requests (bBytes b) os) /\ bBytes b' = snd (requests (bBytes b) os).
Proof.
  induction os as [|o os IH]; intros h b B K P; cbn [http_run requests].
  - exists [], h, b. cbn. rewrite app_nil_r. auto.
  - inversion P as [|? ? Po Ps]; subst. destruct o; cbn [http_op post_ok] in *.
    + destruct (http_read n h) as [[d e] h1] eqn:R. destruct (http_read_frame _ _ _ _ _ R) as (A & C & _).
      cbn [obind]. destruct (IH h1 b ltac:(congruence) K Ps) as (l & h' & b' & -> & Q1 & Q2 & Q3 & Q4).
      cbn [obind]. eexists _, h', b'. rewrite <- C. auto.
    + destruct (read_all_via http_read n n 0 None h) as [[[c d] e] h1] eqn:R.
      destruct (http_read_all_frame _ _ _ _ _ _ _ _ _ R) as (A & C & _).
      cbn [obind]. destruct (IH h1 b ltac:(congruence) K Ps) as (l & h' & b' & -> & Q1 & Q2 & Q3 & Q4).
      cbn [obind]. eexists _, h', b'. rewrite <- C. auto.
    + unfold http_write. rewrite B. destruct (bWrite_spec p b K) as (b1 & -> & K1 & B1). cbn [obind].
      destruct (IH (MkHttp (h_resp h) (Some b1) (h_posts h)) b1 eq_refl K1 Ps) as (l & h' & b' & -> & Q1 & Q2 & Q3 & Q4).
      cbn [obind]. eexists _, h', b'. rewrite B1 in *. auto.
    + destruct o as [k e|status body]; [contradiction|]. unfold http_flush. rewrite B. cbv zeta.
      set (h1 := MkHttp (if status =? 200 then Some body else h_resp h) (Some (bReset b)) (h_posts h ++ [bBytes b])).
      assert (E : exists e, (if status =? 200
        then Ok (None, MkHttp (Some body) (Some (bReset b)) (h_posts h ++ [bBytes b]))
        else Ok (Some (ETransport UNKNOWN_TRANSPORT_EXCEPTION), MkHttp (h_resp h) (Some (bReset b)) (h_posts h ++ [bBytes b]))) = Ok (e, h1)).
      { subst h1. destruct (status =? 200); eexists; reflexivity. }
      destruct E as (e & ->). cbn [obind].
      destruct (IH h1 (bReset b) eq_refl (bReset_ok b) Ps) as (l & h' & b' & -> & Q1 & Q2 & Q3 & Q4).
      cbn [obind]. eexists _, h', b'. change (bBytes (bReset b)) with (@nil Z) in *.
      destruct (requests [] os) as [rs t]. cbn [fst snd] in *. split; [reflexivity|].
      rewrite Q3. subst h1. cbn [h_posts]. rewrite <- app_assoc. auto.
    + contradiction.
Qed.

(** No response has been received yet, or none since Close. *)
Fixpoint has_response (x : bool) (os : list hop) : bool :=
  match os with
  | [] => x
  | HFlush (PostOk status _) :: os' => has_response (x || (status =? 200)) os'
  | HClose _ :: os' => has_response false os'
  | _ :: os' => has_response x os'
  end.
Definition is_some {A} (o : option A) : bool := match o with Some _ => true | None => false end.
Lemma is_some_none : forall A (o : option A), is_some o = false <-> o = None.
Proof. intros A [a|]; cbn; split; congruence. Qed.
Lemma is_some_some : forall A (o : option A), is_some o = true <-> o <> None.
Proof. intros A [a|]; cbn; split; congruence. Qed.
Lemma http_run_resp : forall os h l h', http_run os h = Ok (l, h') ->
  is_some (h_resp h') = has_response (is_some (h_resp h)) os.
Proof.
  induction os as [|o os IH]; intros h l h' H; cbn [http_run] in H.
  - injection H as <- <-. reflexivity.
  - destruct (http_op o h) as [[[[d n] e] h1]| |] eqn:O; cbn [obind] in H; try discriminate.
    destruct (http_run os h1) as [[l1 h2]| |] eqn:R; cbn [obind] in H; try discriminate.
    injection H as <- <-. rewrite (IH _ _ _ R).
    assert (F : forall h2, (h_resp h = None -> h_resp h2 = None) /\ (h_resp h <> None -> h_resp h2 <> None) ->
      is_some (h_resp h2) = is_some (h_resp h)).
    { intros h3 [A B]. destruct (is_some (h_resp h)) eqn:S.
      - apply is_some_some. apply B. now apply is_some_some.
      - apply is_some_none. apply A. now apply is_some_none. }
    destruct o; cbn [http_op has_response] in *.
    + destruct (http_read n0 h) as [[d1 e1] h3] eqn:Q. injection O as <- <- <- <-.
      destruct (http_read_frame _ _ _ _ _ Q) as (_ & _ & A & B). rewrite F by auto. reflexivity.
    + destruct (read_all_via http_read n0 n0 0 None h) as [[[c d1] e1] h3] eqn:Q. injection O as <- <- <- <-.
      destruct (http_read_all_frame _ _ _ _ _ _ _ _ _ Q) as (_ & _ & A & B). rewrite F by auto. reflexivity.
    + unfold http_write in O. destruct (h_buf h) as [b|]; [|discriminate].
      destruct (bWrite p b) as [[m x] b1]. cbn [obind] in O. injection O as <- <- <- <-. reflexivity.
    + unfold http_flush in O. destruct (h_buf h) as [b|]; [|discriminate].
      destruct o as [k x|status body].
      * destruct (bRead k b) as [[m y] b1]. cbn [obind] in O. injection O as <- <- <- <-. reflexivity.
      * cbv zeta in O. destruct (status =? 200); cbn [obind] in O; injection O as <- <- <- <-; cbn [h_resp];
          [rewrite orb_true_r|rewrite orb_false_r]; reflexivity.
    + unfold http_close in O. destruct (h_resp h); injection O as <- <- <- <-; reflexivity.
Qed.
