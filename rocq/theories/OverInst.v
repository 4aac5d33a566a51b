(** The transports of the library as streams for the protocols. *)
From Coq Require Import ZArith List Bool Lia.
From Coq Require Import ZifyBool ZifyNat.
From Verif Require Import Base Errors Transport Proto Arith TransportProofs Binary Compact Buffer BufIO
  Framed FramedProofs MemBuffer IOStream Http Socket Over Het OverSim.
Import ListNotations.
Open Scope Z_scope.

Lemma tread_benign : forall n r, benign r -> (0 < n)%nat ->
  match content r with
  | [] => tread n r = ([], Some EEof, []) /\ r = []
  | _ => exists d r', tread n r = (d, None, r') /\ d <> [] /\ (length d <= n)%nat /\
           content r = d ++ content r' /\ benign r'
  end.
Proof.
  intros n r B N. destruct r as [|[bs e] r]; [cbn; auto|].
  inversion B as [|? ? [B1 B2] Br]; subst. cbn in B1, B2. subst e.
  unfold content. cbn [map fst concat]. destruct bs as [|b0 bs0] eqn:Eb; [congruence|]. rewrite <- Eb in *.
  assert (E : exists c l, bs ++ concat (map fst r) = c :: l) by (subst bs; cbn; eauto).
  destruct E as (c & l & E). rewrite E. rewrite <- E. clear c l E. cbn [tread].
  destruct (n <? length bs)%nat eqn:L.
  - exists (firstn n bs), ((skipn n bs, None) :: r). split; [reflexivity|].
    split; [intro Z0; apply (f_equal (@length Z)) in Z0; rewrite firstn_length in Z0; cbn in Z0; lia|].
    split; [apply firstn_le_length|]. cbn [map fst concat]. rewrite app_assoc, firstn_skipn.
    split; [reflexivity|]. constructor; [|exact Br]. cbn. split; [|reflexivity].
    intro Z0. apply (f_equal (@length Z)) in Z0. rewrite skipn_length in Z0. cbn in Z0. lia.
  - exists bs, r. split; [reflexivity|]. split; [assumption|]. split; [lia|]. auto.
Qed.

(** ** TFramedTransport *)
Definition framed_holds (f : framed) (C : bytes) : Prop :=
  exists buf ps tail, rd_inv f buf ps tail /\ C = buf ++ concat ps.
Lemma framed_delivers : forall intw, 32 <= intw -> delivers (framed_read intw) framed_holds.
Proof.
  intros intw W f C n (buf & ps & tail & I & ->) N.
  pose proof (framed_read_step intw n f buf ps tail W N I) as H.
  destruct (buf ++ concat ps) as [|c l].
  - destruct H as (f' & -> & I'). eexists _, f'. split; [reflexivity|]. exists [], [], []. auto.
  - destruct H as (d & f' & buf' & ps' & -> & D & L & E & I').
    exists d, (buf' ++ concat ps'), f'. repeat split; auto. exists buf', ps', tail. auto.
Qed.
(** A bound on the bytes to come. *)
Definition framed_unread (f : framed) : nat := length (bBytes (f_rbuf f)) + rt_size (f_r f).
Lemma concat_frames_len : forall ps, (length (concat ps) <= length (concat (map frame ps)))%nat.
Proof.
  induction ps as [|p ps IH]; cbn [concat map]; [apply Nat.le_refl|]. rewrite !app_length.
  unfold frame at 1. rewrite app_length. lia.
Qed.
Lemma framed_unread_ok : forall f C, framed_holds f C -> (length C <= framed_unread f)%nat.
Proof.
  intros f C (buf & ps & tail & (_ & Bu & _ & X & _) & ->). unfold framed_unread, rt_size.
  fold (content (f_r f)). rewrite Bu, X, !app_length. pose proof (concat_frames_len ps). lia.
Qed.
(** Writing: what was written since the last Flush is buffered, [w0] untouched. *)
Definition framed_takes (w0 : wt) (f : framed) (o : bytes) : Prop :=
  b_ok (f_wbuf f) /\ bBytes (f_wbuf f) = o /\ f_w f = w0.
Definition framed_wr (p : bytes) (f : framed) : outcome (Z * option err * framed) := Ok (framed_write p f).
Lemma framed_accepts : forall pan w0, accepts pan framed_wr (framed_takes w0).
Proof.
  intros pan w0 p f o (K & B & Ww). left. unfold framed_wr, framed_write.
  destruct (bWrite_spec p _ K) as (b' & -> & K' & B'). eexists _, _. split; [reflexivity|].
  split; [exact K'|]. cbn. rewrite B', B. auto.
Qed.

(** io.CopyN over a Write that accepts non-empty pieces. *)
Lemma copy_over_accepts : forall T pan (wr : bytes -> T -> outcome (Z * option err * T)) inv, accepts pan wr inv ->
  forall p s o, inv s o -> exists s', copy_over wr p s = Ok (None, s') /\ inv s' (o ++ p).
Proof.
  intros T pan wr inv A p s o I. unfold copy_over.
  assert (L : (length p <= length p)%nat) by lia. revert L. generalize (length p) at 2 3 as f. intro f.
  revert p s o I. induction f as [|f IH]; intros p s o I L.
  - destruct p; [|cbn in L; lia]. exists s. rewrite app_nil_r. auto.
  - cbn [copy_blocks_over]. destruct p as [|b p]; [exists s; rewrite app_nil_r; auto|].
    assert (P : (0 < copy_block)%nat) by (unfold copy_block; apply (Z2Nat.inj_lt 0 32768); lia).
    destruct (A (firstn copy_block (b :: p)) s o I) as [(n & s1 & -> & I1)|(_ & E & _)].
    + cbn [obind]. destruct (IH (skipn copy_block (b :: p)) s1 _ I1) as (s' & -> & I').
      { rewrite skipn_length. cbn [length] in *. lia. }
      exists s'. rewrite <- app_assoc, firstn_skipn in I'. auto.
    + destruct copy_block; [lia|discriminate].
Qed.

(** ** TIOStreamTransport *)
(** The reader is the caller's ([RRaw]) or a bufio.Reader on it. *)
Definition ios_holds (s : ios) (C : bytes) : Prop :=
  benign (br_r (i_br s)) /\
  match i_reader s with
  | RNil => False
  | RBuf => br_err (i_br s) = None /\ C = br_buf (i_br s) ++ content (br_r (i_br s))
  | RRaw => C = content (br_r (i_br s))
  end.
Lemma br_read_benign : forall n b, (0 < n)%nat -> benign (br_r b) -> br_err b = None ->
  match br_buf b ++ content (br_r b) with
  | [] => exists b', br_read n b = ([], Some EEof, b') /\ benign (br_r b') /\ br_err b' = None /\
            br_buf b' ++ content (br_r b') = []
  | C => exists d b', br_read n b = (d, None, b') /\ d <> [] /\ (length d <= n)%nat /\
            C = d ++ br_buf b' ++ content (br_r b') /\ benign (br_r b') /\ br_err b' = None
  end.
Proof.
  intros n [buf e r] N B E. cbn [br_buf br_err br_r] in *. subst e.
  destruct n as [|n]; [lia|]. unfold br_read. cbn [br_buf br_err br_r].
  destruct buf as [|c buf].
  - cbn [app]. destruct (buf_size <=? S n)%nat.
    + pose proof (tread_benign (S n) r B N) as H. destruct (content r) as [|c l].
      * destruct H as [-> ->]. eexists. split; [reflexivity|]. repeat split; auto.
      * destruct H as (d & r' & -> & D & L & X & B'). exists d. eexists. split; [reflexivity|]. cbn. auto.
    + unfold br_fill. cbn [br_buf br_err br_r length app].
      assert (P : (0 < buf_size - 0)%nat) by (destruct buf_size_pos as (k & ->); lia).
      pose proof (tread_benign (buf_size - 0) r B P) as H. destruct (content r) as [|c l].
      * destruct H as [-> ->]. cbn. eexists. split; [reflexivity|]. repeat split; auto.
      * destruct H as (d & r' & -> & D & L & X & B'). cbn [br_buf br_err br_r].
        destruct d as [|d0 d]; [congruence|].
        exists (firstn (S n) (d0 :: d)). eexists. split; [reflexivity|]. split; [discriminate|].
        split; [apply firstn_le_length|]. cbn [br_buf br_err br_r].
        rewrite app_assoc, firstn_skipn. auto.
  - cbn [app]. exists (firstn (S n) (c :: buf)). eexists. split; [reflexivity|]. split; [discriminate|].
    split; [apply firstn_le_length|]. cbn [br_buf br_err br_r]. rewrite app_assoc, firstn_skipn. auto.
Qed.
Lemma ios_delivers : delivers ios_read ios_holds.
Proof.
  intros s C n (B & I) N. unfold ios_read. destruct (i_reader s) eqn:R; [contradiction| |].
  - destruct I as [E ->]. pose proof (br_read_benign n (i_br s) N B E) as H.
    destruct (br_buf (i_br s) ++ content (br_r (i_br s))) as [|c l].
    + destruct H as (b' & -> & B' & E' & X). cbn [transport_exc_from_os]. eexists _, _.
      split; [reflexivity|]. unfold ios_holds. cbn. auto.
    + destruct H as (d & b' & -> & D & L & X & B' & E'). exists d, (br_buf b' ++ content (br_r b')). eexists.
      split; [reflexivity|]. unfold ios_holds. cbn. auto 8.
  - subst C. pose proof (tread_benign n _ B N) as H. destruct (content (br_r (i_br s))) as [|c l].
    + destruct H as [-> _]. eexists _, _. split; [reflexivity|]. unfold ios_holds. cbn.
      split; [constructor|reflexivity].
    + destruct H as (d & r' & -> & D & L & X & B'). exists d, (content r'). eexists.
      split; [reflexivity|]. unfold ios_holds. cbn. auto 8.
Qed.
Definition ios_unread (s : ios) : nat := length (br_buf (i_br s)) + rt_size (br_r (i_br s)).
Lemma ios_unread_ok : forall s C, ios_holds s C -> (length C <= ios_unread s)%nat.
Proof.
  intros s C (_ & I). unfold ios_unread, rt_size. fold (content (br_r (i_br s))).
  destruct (i_reader s); [contradiction| |].
  - destruct I as [_ ->]. rewrite app_length. lia.
  - subst C. lia.
Qed.
(** Everything taken is passed on or buffered; no Write of the wrapped writer is going to fail. *)
Definition ios_takes (o0 : bytes) (s : ios) (o : bytes) : Prop :=
  ios_ok s /\ bw_err (i_bw s) = None /\ w_sched (bw_w (i_bw s)) = [] /\ i_writer s <> RNil /\
  i_out s ++ i_pending s = o0 ++ o.
Lemma bw_flush_benign : forall b, bw_err b = None -> w_sched (bw_w b) = [] ->
  exists b', bw_flush b = (None, b') /\ bw_err b' = None /\ w_sched (bw_w b') = [].
Proof.
  intros b E S0. unfold bw_flush. rewrite E. destruct (bw_buf b); [eauto|].
  unfold twrite. rewrite S0. eexists. split; [reflexivity|]. auto.
Qed.
Lemma bw_loop_benign : forall f nn p b, bw_err b = None -> w_sched (bw_w b) = [] ->
  exists nn' rest b', bw_write_loop f nn p b = (nn', rest, b') /\ bw_err b' = None /\ w_sched (bw_w b') = [].
Proof.
  induction f as [|f IH]; intros nn p b E S0; cbn [bw_write_loop]; [eauto 8|].
  destruct (_ && _); [|eauto 8]. destruct (bw_buf b) as [|c l].
  - unfold twrite. rewrite S0. apply IH; reflexivity.
  - destruct (bw_flush_benign (MkBw ((c :: l) ++ firstn (buf_size - length (c :: l)) p) None (bw_w b)) eq_refl S0)
      as (b1 & -> & E1 & S1). apply IH; assumption.
Qed.
Lemma bw_write_benign : forall p b, bw_err b = None -> w_sched (bw_w b) = [] ->
  exists n b', bw_write p b = (n, None, b') /\ bw_err b' = None /\ w_sched (bw_w b') = [].
Proof.
  intros p b E S0. unfold bw_write. destruct (bw_loop_benign 3 0 p b E S0) as (nn & rest & b' & -> & E' & S').
  rewrite E'. eexists _, _. split; [reflexivity|]. auto.
Qed.
Lemma ios_accepts : forall o0, accepts true ios_write (ios_takes o0).
Proof.
  intros o0 p s o (K & E & S0 & W & X).
  assert (Dp : p = [] \/ p <> []) by (destruct p; [left; reflexivity|right; discriminate]).
  destruct Dp as [Ep|Ep].
  - right. split; [reflexivity|]. split; [assumption|]. rewrite Ep. unfold ios_write. destruct (i_writer s) eqn:Ws; [congruence| |].
    + assert (Q : bw_write [] (i_bw s) = (0, None, MkBw (bw_buf (i_bw s) ++ []) None (bw_w (i_bw s)))).
      { unfold bw_write. cbn [bw_write_loop length]. replace (buf_size - length (bw_buf (i_bw s)) <? 0)%nat with false by lia.
        cbn [andb]. rewrite E. reflexivity. }
      rewrite Q. reflexivity.
    + unfold twrite. rewrite S0. reflexivity.
  - left.
    assert (N : wr_nonempty (IWrite p)) by exact Ep.
    destruct (ios_op_ok (IWrite p) s K N) as (d & n & e & s' & H & K').
    assert (G : e = None /\ bw_err (i_bw s') = None /\ w_sched (bw_w (i_bw s')) = []).
    { cbn [ios_op] in H. unfold ios_write in H. destruct (i_writer s) eqn:Ws; [congruence| |].
      - destruct (bw_write_benign p (i_bw s) E S0) as (m & b' & Hb & E' & S'). rewrite Hb in H.
        destruct (m =? 0); [discriminate|]. cbn in H. injection H as <- <- <- <-. auto.
      - unfold twrite in H. rewrite S0 in H. destruct (Z.of_nat (length p) =? 0); [discriminate|].
        cbn in H. injection H as <- <- <- <-. auto. }
    destruct G as (-> & E' & S').
    destruct (ios_op_stream (IWrite p) s d n s' K W I H) as (K2 & W2 & X2 & _).
    cbn [ios_op] in H. destruct (ios_write p s) as [[[n1 e1] s1]| |] eqn:Hw; cbn in H; try discriminate.
    injection H as _ -> -> ->. exists n, s'. split; [reflexivity|].
    split; [exact K2|]. split; [exact E'|]. split; [exact S'|]. split; [congruence|].
    rewrite X2, X. unfold iwrites. cbn. rewrite app_nil_r, app_assoc. reflexivity.
Qed.

(** ** TMemoryBuffer *)
Definition mem_holds (b : membuf) (C : bytes) : Prop := b_ok b /\ bBytes b = C.
Lemma mem_delivers : delivers bRead mem_holds.
Proof.
  intros b C n (K & X) N. destruct (bRead_spec n b K) as (b' & K' & B' & R). rewrite R, X in *.
  destruct C as [|c l].
  - rewrite firstn_nil. replace (n =? 0)%nat with false by lia. eexists _, _. split; [reflexivity|].
    split; [exact K'|]. rewrite B'. apply skipn_nil.
  - exists (firstn n (c :: l)), (bBytes b'), b'. split; [reflexivity|].
    split; [destruct n; [lia|discriminate]|]. split; [apply firstn_le_length|].
    split; [rewrite B', firstn_skipn; reflexivity|]. split; [exact K'|reflexivity].
Qed.
Lemma mem_unread_ok : forall b C, mem_holds b C -> (length C <= length (bBytes b))%nat.
Proof. intros b C [_ ->]. apply Nat.le_refl. Qed.
Definition mem_wr (p : bytes) (b : membuf) : outcome (Z * option err * membuf) := Ok (bWrite p b).
(** io.CopyN uses the ReadFrom method (tmemory_buffer.go:92-94). *)
Definition mem_cp (p : bytes) (b : membuf) : outcome (option err * membuf) :=
  let '(_, e, b', _) := bReadFrom [(p, None)] b in Ok (e, b').
Lemma mem_accepts : forall pan, accepts pan mem_wr mem_holds.
Proof.
  intros pan p b o (K & B). left. unfold mem_wr. destruct (bWrite_spec p _ K) as (b' & -> & K' & B').
  eexists _, _. split; [reflexivity|]. split; [exact K'|]. rewrite B', B. reflexivity.
Qed.
Lemma mem_copies : forall p b o, mem_holds b o -> exists b', mem_cp p b = Ok (None, b') /\ mem_holds b' (o ++ p).
Proof.
  intros p b o (K & B). unfold mem_cp, bReadFrom. destruct (bWrite_spec p _ K) as (b' & -> & K' & B').
  eexists. split; [reflexivity|]. destruct p; unfold mem_holds; [rewrite app_nil_r; auto|]. rewrite B', B. auto.
Qed.

(** ** THttpClient *)
Definition http_holds (h : http) (C : bytes) : Prop :=
  match h_resp h with Some r => benign r /\ C = content r | None => False end.
Lemma http_delivers : delivers http_read http_holds.
Proof.
  intros h C n I N. unfold http_holds, http_read in *. destruct (h_resp h) as [r|]; [|contradiction].
  destruct I as [B ->]. pose proof (tread_benign n _ B N) as H. destruct (content r) as [|c l].
  - destruct H as [-> _]. eexists _, _. split; [reflexivity|]. cbn. split; [constructor|reflexivity].
  - destruct H as (d & r' & -> & D & L & X & B'). exists d, (content r'). eexists.
    split; [reflexivity|]. cbn. auto.
Qed.
Definition http_unread (h : http) : nat := match h_resp h with Some r => rt_size r | None => 0 end.
Lemma http_unread_ok : forall h C, http_holds h C -> (length C <= http_unread h)%nat.
Proof.
  intros h C I. unfold http_holds, http_unread in *. destruct (h_resp h); [|contradiction].
  destruct I as [_ ->]. apply Nat.le_refl.
Qed.
Definition http_takes (posts : list bytes) (h : http) (o : bytes) : Prop :=
  h_posts h = posts /\ match h_buf h with Some b => b_ok b /\ bBytes b = o | None => False end.
Lemma http_accepts : forall pan posts, accepts pan http_write (http_takes posts).
Proof.
  intros pan posts p h o (P & I). left. unfold http_write. destruct (h_buf h) as [b|] eqn:Hb; [|contradiction].
  destruct I as (K & B). destruct (bWrite_spec p _ K) as (b' & -> & K' & B').
  eexists _, _. split; [reflexivity|]. split; [exact P|]. cbn. rewrite B', B. auto.
Qed.

(** ** TSocket and TNonblockingSocket *)
(** Read of an open or closed socket (tsocket.go:185-192, tnonblocking_socket.go:132-139), [None]:
    closed.  Deadlines are not modelled; Socket.v has the writing side. *)
Definition sock_read (n : nat) (c : option rt) : bytes * option err * option rt :=
  match c with
  | None => ([], Some (ETransport NOT_OPEN), None)
  | Some r => let '(d, e, r') := tread n r in (d, transport_exc_from_os e, Some r')
  end.
Definition sock_holds (c : option rt) (C : bytes) : Prop :=
  match c with Some r => benign r /\ C = content r | None => False end.
Lemma sock_delivers : delivers sock_read sock_holds.
Proof.
  intros c C n I N. unfold sock_holds, sock_read in *. destruct c as [r|]; [|contradiction].
  destruct I as [B ->]. pose proof (tread_benign n _ B N) as H. destruct (content r) as [|c l].
  - destruct H as [-> _]. eexists _, _. split; [reflexivity|]. cbn. split; [constructor|reflexivity].
  - destruct H as (d & r' & -> & D & L & X & B'). exists d, (content r'). eexists.
    split; [reflexivity|]. auto.
Qed.
Definition sock_unread (c : option rt) : nat := match c with Some r => rt_size r | None => 0 end.
Lemma sock_unread_ok : forall c C, sock_holds c C -> (length C <= sock_unread c)%nat.
Proof. intros [r|] C I; [|contradiction]. destruct I as [_ ->]. apply Nat.le_refl. Qed.
Definition sock_wr (p : bytes) (s : sock) : outcome (Z * option err * sock) := Ok (sock_write p s).
Definition nsock_wr (p : bytes) (s : sock) : outcome (Z * option err * sock) := Ok (nsock_write p s).
(** TSocket: buffered, the connections untouched. *)
Definition sock_takes (i : nat) (conns : list wt) (s : sock) (o : bytes) : Prop :=
  k_conn s = Some i /\ b_ok (k_buf s) /\ bBytes (k_buf s) = o /\ k_conns s = conns.
Lemma sock_accepts : forall pan i conns, accepts pan sock_wr (sock_takes i conns).
Proof.
  intros pan i conns p s o (N & K & B & Cs). left. unfold sock_wr, sock_write. rewrite N.
  destruct (bWrite_spec p _ K) as (b' & -> & K' & B'). eexists _, _. split; [reflexivity|].
  unfold sock_takes. cbn. rewrite B', B. auto.
Qed.
(** TNonblockingSocket: straight to the connection. *)
Definition nsock_takes (i : nat) (o0 : bytes) (s : sock) (o : bytes) : Prop :=
  k_conn s = Some i /\ (i < length (k_conns s))%nat /\
  w_sched (conn_wt i (k_conns s)) = [] /\ w_out (conn_wt i (k_conns s)) = o0 ++ o.
Lemma set_conn_len : forall i w cs, length (set_conn i w cs) = length cs.
Proof. induction i; intros w [|c cs]; cbn; auto. Qed.
Lemma set_conn_get : forall i w cs, (i < length cs)%nat -> conn_wt i (set_conn i w cs) = w.
Proof. induction i; intros w [|c cs] L; cbn in *; try lia; [reflexivity|]. apply IHi. lia. Qed.
Lemma nsock_accepts : forall pan i o0, accepts pan nsock_wr (nsock_takes i o0).
Proof.
  intros pan i o0 p s o (N & L & S0 & X). left. unfold nsock_wr, nsock_write. rewrite N.
  unfold twrite. rewrite S0. eexists _, _. split; [reflexivity|]. unfold nsock_takes. cbn [k_conn k_conns].
  rewrite set_conn_len, set_conn_get by assumption. cbn [w_sched w_out]. rewrite X, app_assoc. auto.
Qed.
