(** Properties of the transport factories: C108. *)
From Coq Require Import ZArith List Bool Lia.
From Verif Require Import Base Errors Transport Proto Binary Compact Buffer Framed Over.
From Verif Require Import TField GoVal Compare TMap Gen AppExc Rpc Serve Factory.
Import ListNotations.
Open Scope Z_scope.

(** ** C108: a transport factory wraps the transport it is given *)

(** Where bytes come from or go to: an object given by the caller, a connection, the bytes of a
    TMemoryBuffer, a response, a request that is being put together, a transport of the
    caller's. *)
Inductive place : Type :=
| PObject (a : nat) | PConn (a : nat) | PMemory (id : nat) | PResponse (r : nat) | PRequest (id : nat) | PUser (id : nat).
Definition under (s : stream) : place := match s with SRaw a _ => PObject a | SBufio _ a => PObject a end.
(** What Read takes its bytes from; None if it only fails. *)
Fixpoint source (t : trans) : option place :=
  match t with
  | TNil => None
  | TMem id _ => Some (PMemory id)
  | TIos rd _ _ => option_map under rd
  | TFramed _ t => source t
  | THttp _ resp _ => option_map PResponse resp
  | TSock _ _ c | TNbSock _ _ c => option_map PConn c
  | TSrvSock _ _ _ | TNbSrvSock _ _ _ => None
  | TUser id => Some (PUser id)
  end.
(** Where Write and Flush bring them. *)
Fixpoint sink (t : trans) : option place :=
  match t with
  | TIos _ wr _ => option_map under wr
  | TFramed _ t => sink t
  | THttp _ _ req => option_map PRequest req
  | _ => source t
  end.
(** A TIOStreamTransport as the constructors make it. *)
Definition made (t : trans) : Prop :=
  match t with
  | TIos rd wr true => exists a, rd = Some (SRaw a true) /\ wr = rd
  | TIos rd wr false => (rd = None \/ exists i a, rd = Some (SBufio i a)) /\ (wr = None \/ exists i a, wr = Some (SBufio i a))
  | _ => True
  end.
(** A factory made of ttransport_factory.go and tframed_transport.go only, or one of
    TIOStreamTransports given one. *)
Fixpoint wraps (f : factory) (t : trans) : Prop :=
  match f with
  | FPlain => True
  | FFramed f => wraps f t
  | FIos _ _ _ => exists rd wr isrw, t = TIos rd wr isrw
  | _ => False
  end.
Fixpoint plain (f : factory) : Prop := match f with FPlain => True | FFramed f => plain f | _ => False end.

(** What these return reads from where the given transport reads from, and writes to where it
    writes to. *)
Theorem C108_wraps_partial : forall w fresh f t, wraps f t -> made t ->
  exists t', GetTransport w fresh f t = Ok t' /\ source t' = source t /\ sink t' = sink t.
Proof.
  intros w fresh f. revert fresh. induction f; intros fresh t W M; cbn [wraps] in W; try contradiction; cbn [GetTransport].
  - eauto.
  - destruct (IHf (S fresh) t W M) as (t' & -> & A & B). cbn [obind]. eexists. split; [reflexivity|]. auto.
  - destruct W as (rd' & wr' & isrw' & ->). unfold ios_again. destruct isrw'; cbn in M.
    + destruct M as (a & -> & ->). eauto.
    + eexists. split; [reflexivity|]. cbn. split.
      * destruct rd' as [[]|]; reflexivity.
      * destruct wr' as [[]|]; reflexivity.
Qed.
Print Assumptions C108_wraps_partial.

(** The streams of a TIOStreamTransport are handed on as they are: no second buffer is put over
    the first, so what the first has read ahead is not lost. *)
Theorem C108_same_buffers : forall w fresh rd wr isrw f_rd f_wr f_isrw, made (TIos rd wr isrw) ->
  GetTransport w fresh (FIos f_rd f_wr f_isrw) (TIos rd wr isrw) = Ok (TIos rd wr isrw).
Proof.
  intros w fresh rd wr isrw f_rd f_wr f_isrw M. cbn [GetTransport]. unfold ios_again. destruct isrw; cbn in M.
  - destruct M as (a & -> & ->). reflexivity.
  - destruct M as [[->|(i & a & ->)] [->|(j & b & ->)]]; reflexivity.
Qed.
Print Assumptions C108_same_buffers.

(** One that reads and writes the same object cannot be wrapped once it was closed: the factory
    panics, whether Close left the Writer or not. *)
Theorem C108_closed_refuted : forall w fresh f_rd f_wr f_isrw wr,
  GetTransport w fresh (FIos f_rd f_wr f_isrw) (TIos None wr true) = Panic.
Proof. reflexivity. Qed.
Print Assumptions C108_closed_refuted.

(** A THttpClient made by a factory keeps the URL it was made with: given it back, any THttpClient factory asks for that URL
    (as url.Parse understood it), not for its own, and posts if the client posts, not if the factory does. *)
Theorem C108_http : forall w fresh fresh' f0 u post0 u' post' t, GetTransport w fresh (FHttp u post0) f0 = Ok t ->
  (forall url resp req, f0 <> THttp (Some url) resp req) -> t <> TNil ->
  exists url, w_parse w u = Some url /\
    GetTransport w fresh' (FHttp u' post') t =
    Ok (match w_parse w url with
        | None => TNil
        | Some url2 => if post0 then THttp (Some url2) None (Some fresh')
                       else match w_get w url with Some r => THttp (Some url2) (Some r) None | None => TNil end
        end).
Proof.
  intros w fresh fresh' f0 u post0 u' post' t G N0 Nt. cbn [GetTransport] in G.
  assert (E : (if post0 then NewTHttpPostClient w fresh u else NewTHttpClient w u) = t).
  { destruct f0; try (injection G; auto; fail). destruct url as [url|]; [destruct (N0 url resp req eq_refl)|]. injection G; auto. }
  destruct post0; unfold NewTHttpPostClient, NewTHttpClient in E.
  - destruct (w_parse w u) as [url|]; [|congruence]. subst t. exists url. split; [reflexivity|]. cbn [GetTransport].
    unfold NewTHttpPostClient. destruct (w_parse w url); reflexivity.
  - destruct (w_parse w u) as [url|]; [|congruence]. destruct (w_get w u) as [r|]; [|congruence]. subst t. exists url.
    split; [reflexivity|]. cbn [GetTransport]. unfold NewTHttpClient. destruct (w_parse w url); [|reflexivity]. destruct (w_get w url); reflexivity.
Qed.
Print Assumptions C108_http.
Example C108_http_case : let w := MkWeb (fun u => Some (47 :: u)) (fun _ => Some 3%nat) in
  GetTransport w 5 (FHttp [1] true) TNil = Ok (THttp (Some [47; 1]) None (Some 5%nat)) /\
  GetTransport w 6 (FHttp [2] false) (THttp (Some [47; 1]) None (Some 5%nat)) = Ok (THttp (Some [47; 47; 1]) None (Some 6%nat)).
Proof. split; reflexivity. Qed.

(** All addresses in [t] were allocated before. *)
Definition older (fresh : nat) (p : option place) : Prop :=
  match p with Some (PMemory id) => (id < fresh)%nat | Some (PRequest id) => (id < fresh)%nat | _ => True end.

(** Every other factory gives a transport that shares nothing with the one it was given, so what
    is written to one does not go where the other's bytes go, nor does one read the other's. *)
Definition elsewhere (f : factory) : Prop :=
  match f with FPlain | FFramed _ | FIos _ _ _ => False | _ => True end.
Theorem C108_elsewhere_refuted : forall w fresh f t t', elsewhere f ->
  (forall u r, source t = Some (PResponse r) -> w_get w u <> Some r) ->
  older fresh (source t) -> older fresh (sink t) -> GetTransport w fresh f t = Ok t' ->
  (source t' = None \/ source t' <> source t) /\ (sink t' = None \/ sink t' <> sink t).
Proof.
  intros w fresh f t t' E N O1 O2 G.
  assert (Hm : forall s, NewTMemoryBufferLen fresh s = Ok t' -> source t' = Some (PMemory fresh) /\ sink t' = Some (PMemory fresh)).
  { intros s Q. unfold NewTMemoryBufferLen in Q. destruct (s <? 0); [discriminate|]. injection Q as <-. auto. }
  assert (Hp : forall u, NewTHttpPostClient w fresh u = t' -> source t' = None /\ (sink t' = None \/ sink t' = Some (PRequest fresh))).
  { intros u <-. unfold NewTHttpPostClient. destruct (w_parse w u); cbn; auto. }
  assert (Hg : forall u, NewTHttpClient w u = t' -> sink t' = None /\
    (source t' = None \/ exists r, w_get w u = Some r /\ source t' = Some (PResponse r))).
  { intros u <-. unfold NewTHttpClient. destruct (w_parse w u); [|cbn; auto]. destruct (w_get w u) eqn:Q; cbn; eauto. }
  assert (Fr : forall p, older fresh p -> Some (PMemory fresh) <> p /\ Some (PRequest fresh) <> p).
  { intros p Hp'. split; intros <-; cbn in Hp'; lia. }
  destruct (Fr _ O1) as [F1 F2], (Fr _ O2) as [F3 F4].
  assert (Gm : forall s, NewTMemoryBufferLen fresh s = Ok t' ->
     (source t' = None \/ source t' <> source t) /\ (sink t' = None \/ sink t' <> sink t)).
  { intros s Q. destruct (Hm s Q) as [A B]. rewrite A, B. auto. }
  assert (Gp : forall u, NewTHttpPostClient w fresh u = t' ->
     (source t' = None \/ source t' <> source t) /\ (sink t' = None \/ sink t' <> sink t)).
  { intros u Q. destruct (Hp u Q) as [A [B|B]]; rewrite A, B; auto. }
  assert (Gg : forall u, NewTHttpClient w u = t' ->
     (source t' = None \/ source t' <> source t) /\ (sink t' = None \/ sink t' <> sink t)).
  { intros u Q. destruct (Hg u Q) as [A [B|(r & B & C)]]; rewrite A; [rewrite B; auto|]. rewrite C. split; [right|auto].
    intro K. exact (N u r (eq_sym K) B). }
  destruct f; cbn in E; try contradiction; cbn [GetTransport] in G.
  - destruct t; try (exact (Gm _ G)). destruct (0 <? size0); exact (Gm _ G).
  - assert (D : Ok (if post then NewTHttpPostClient w fresh url else NewTHttpClient w url) = Ok t' ->
      (source t' = None \/ source t' <> source t) /\ (sink t' = None \/ sink t' <> sink t)).
    { intros Q. injection Q as Q. destruct post; eauto. }
    destruct t as [|? ?|? ? ?|? ?|url0 resp0 req0|? ? ?|? ? ?|? ? ?|? ? ?|?]; try exact (D G).
    destruct url0 as [u0|]; [|exact (D G)]. destruct req0; injection G as G; eauto.
  - destruct t; injection G as <-; cbn; auto.
  - destruct t as [|? ?|? ? ?|? ?|? ? ?|? ? ?|? ? ?|[]|? ? ?|?]; injection G as <-; cbn; auto.
  - destruct t as [|? ?|? ? ?|? ?|? ? ?|? ? ?|? ? ?|? ? ?|[]|?]; injection G as <-; cbn; auto.
Qed.
Print Assumptions C108_elsewhere_refuted.

(** Exactly the factories of ttransport_factory.go and tframed_transport.go serve the connections
    of a server socket: any other, however framed, gives a transport that does not read what the
    client sends nor sends it anything. *)
Theorem C108_socket : forall w fresh f addr timeout c t', GetTransport w fresh f (TSock addr timeout (Some c)) = Ok t' ->
  (source t' = Some (PConn c) <-> plain f) /\ (sink t' = Some (PConn c) <-> plain f).
Proof.
  intros w fresh f. revert fresh. induction f; intros fresh a0 t0 c t' G; cbn [GetTransport] in G; cbn [plain].
  - injection G as <-. cbn. tauto.
  - destruct (GetTransport w (S fresh) f (TSock a0 t0 (Some c))) as [t1| |] eqn:Q; cbn [obind] in G; try discriminate.
    injection G as <-. cbn [source sink]. exact (IHf _ _ _ _ _ Q).
  - unfold ios_again in G. destruct isrw.
    + destruct rd as [[a [|]|]|]; try discriminate. injection G as <-. cbn.
      split; (split; [discriminate|contradiction]).
    + injection G as <-. cbn. destruct rd as [[]|], wr as [[]|]; cbn; split; (split; [discriminate|contradiction]).
  - unfold NewTMemoryBufferLen in G. destruct (size <? 0); [discriminate|]. injection G as <-. cbn.
    split; (split; [discriminate|contradiction]).
  - injection G as <-. destruct post.
    + unfold NewTHttpPostClient. destruct (w_parse w url); cbn; split; (split; [discriminate|contradiction]).
    + unfold NewTHttpClient. destruct (w_parse w url); [destruct (w_get w url)|]; cbn; split; (split; [discriminate|contradiction]).
  - injection G as <-. cbn. split; (split; [discriminate|contradiction]).
  - injection G as <-. cbn. split; (split; [discriminate|contradiction]).
  - injection G as <-. cbn. split; (split; [discriminate|contradiction]).
Qed.
Print Assumptions C108_socket.

(** For transports of another kind than their own, it does not even matter which they are. *)
Definition kin (f : factory) (t : trans) : bool :=
  match f, t with
  | FIos _ _ _, TIos _ _ _ => true
  | FMem _, TMem _ _ => true
  | FHttp _ _, THttp _ _ _ => true
  | FNbSock _, TNbSock _ _ _ => true
  | FSrvSock _ _, TSrvSock _ _ _ => true
  | FNbSrvSock _, TNbSrvSock _ _ _ => true
  | _, _ => false
  end.
Theorem C108_ignored_refuted : forall w fresh f t1 t2, kin f t1 = false -> kin f t2 = false ->
  match f with FPlain | FFramed _ => False | _ => True end ->
  GetTransport w fresh f t1 = GetTransport w fresh f t2.
Proof.
  intros w fresh f t1 t2 K1 K2 E. destruct f; try contradiction;
    destruct t1; try discriminate K1; destruct t2; try discriminate K2; reflexivity.
Qed.
Print Assumptions C108_ignored_refuted.

(** ... so a server with such a factory for its input handles no request and sends nothing,
    whatever the client sends and whatever protocols and output it has, as long as nothing else
    has anything to deliver. *)
Definition delivered (at_place : place -> rt) (t : trans) : rt :=
  match source t with Some p => at_place p | None => [] end.
Theorem C108_unserved_refuted : forall w fresh f addr timeout c t' at_place H intw sv x M cf fuel errtext
    (handle : H -> bytes -> list any -> (list (Z * any) * option bytes) * H) fs stopped rounds h,
  ~ plain f -> GetTransport w fresh f (TSock addr timeout (Some c)) = Ok t' ->
  (forall p, p <> PConn c -> at_place p = []) ->
  processRequest x M cf fuel errtext handle fs stopped intw sv (S rounds) h (delivered at_place t') = Ok (h, []).
Proof.
  intros w fresh f addr timeout c t' at_place H intw sv x M cf fuel errtext handle fs stopped rounds h P G D.
  assert (E : delivered at_place t' = []).
  { unfold delivered. destruct (source t') as [p|] eqn:S; [|reflexivity]. apply D. intros ->.
    apply P. apply (proj1 (C108_socket _ _ _ _ _ _ _ G)). exact S. }
  rewrite E. destruct sv as [[] ot [] op]; unfold processRequest; cbn; destruct (stopped 0%nat); cbn;
    destruct ot, op; reflexivity.
Qed.
Print Assumptions C108_unserved_refuted.

Definition no_web : web := MkWeb (fun u => Some u) (fun _ => None).
Example C108_case :
  (* an accepted connection, framed; the same through a factory of memory buffers, and framed over it *)
  GetTransport no_web 5 (FFramed FPlain) (TSock (Some 1%nat) 0 (Some 3%nat)) = Ok (TFramed 5 (TSock (Some 1%nat) 0 (Some 3%nat))) /\
  plain (FFramed FPlain) /\
  GetTransport no_web 5 (FFramed (FMem 16)) (TSock (Some 1%nat) 0 (Some 3%nat)) = Ok (TFramed 5 (TMem 6 16)) /\
  ~ plain (FFramed (FMem 16)) /\
  (* streams, buffered *)
  made (TIos (Some (SBufio 0 1)) (Some (SBufio 2 3)) false) /\
  wraps (FIos None None false) (TIos (Some (SBufio 0 1)) (Some (SBufio 2 3)) false) /\
  (* a memory buffer is not wrapped, and http.Get failed *)
  elsewhere (FMem 16) /\ elsewhere (FHttp [104] false) /\
  GetTransport no_web 5 (FMem 16) (TMem 4 8) = Ok (TMem 5 8) /\ older 5 (source (TMem 4 8)) /\
  GetTransport no_web 5 (FHttp [104] false) (TMem 4 8) = Ok TNil /\
  GetTransport no_web 5 (FMem (-1)) TNil = Panic /\
  kin (FMem 16) (TUser 1) = false /\ kin (FMem 16) (TSock None 0 (Some 3%nat)) = false.
Proof.
  repeat match goal with |- _ /\ _ => split end; try reflexivity; try exact I; try (intros []); cbn.
  - split; right; eexists _, _; reflexivity.
  - eexists _, _, _. reflexivity.
  - lia.
Qed.
