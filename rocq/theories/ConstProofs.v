(** The code rendered for constants computes them. *)
From Coq Require Import ZArith List Bool Lia Sorted.
From Coq Require Import ZifyBool ZifyNat.
From Verif Require Import Base Errors Proto Arith F64 Strconv TField GoVal Compare CompareProofs TList TSet TMap.
From Verif Require Import Values Gen Names Consts ConstSpec.
Import ListNotations.
Open Scope Z_scope.

Lemma beq_refl : forall a, beq a a = true.
Proof. intro a. unfold beq. destruct (list_eq_dec Z.eq_dec a a); congruence. Qed.
Lemma beq_neq : forall a b, a <> b -> beq a b = false.
Proof. intros a b H. unfold beq. destruct (list_eq_dec Z.eq_dec a b); congruence. Qed.
Lemma beq_true : forall a b, beq a b = true -> a = b.
Proof. intros a b H. unfold beq in H. destruct (list_eq_dec Z.eq_dec a b); congruence. Qed.

Lemma some_pair : forall A B (a a' : A) (b b' : B), Some (a, b) = Some (a', b') -> a = a' /\ b = b'.
Proof. intros. split; congruence. Qed.

(** ** Scopes *)

Lemma sfind_supd : forall s y g w v, sfind s y = Some (g, w) -> sfind (supd s y v) y = Some (g, v).
Proof.
  induction s as [|[z [g0 w0]] s IH]; intros y g w v H; cbn in *; [discriminate|].
  destruct (beq z y) eqn:B; cbn; rewrite B; [congruence|eauto].
Qed.
Lemma find_update : forall E y g w v, find E y = Some (g, w) -> find (update E y v) y = Some (g, v).
Proof.
  induction E as [|s E IH]; intros y g w v H; cbn in *; [discriminate|].
  destruct (sfind s y) as [[g' w']|] eqn:F; cbn.
  - rewrite (sfind_supd s y g' w' v F). congruence.
  - rewrite F. eauto.
Qed.
Lemma supd_id : forall s y g v, sfind s y = Some (g, v) -> supd s y v = s.
Proof.
  induction s as [|[z [g0 w0]] s IH]; intros y g v H; cbn in *; [discriminate|].
  destruct (beq z y); [congruence|]. f_equal. eauto.
Qed.
Lemma update_id : forall E y g v, find E y = Some (g, v) -> update E y v = E.
Proof.
  induction E as [|s E IH]; intros y g v H; cbn in *; [discriminate|].
  destruct (sfind s y) as [[g' w']|] eqn:F.
  - injection H as -> ->. f_equal. eapply supd_id; eauto.
  - f_equal. eauto.
Qed.
Lemma supd_supd : forall s y v w, supd (supd s y v) y w = supd s y w.
Proof.
  induction s as [|[z [g0 w0]] s IH]; intros y v w; cbn; [reflexivity|].
  destruct (beq z y) eqn:B; cbn; rewrite B; congruence.
Qed.
Lemma sfind_supd_some : forall s y v, sfind s y <> None -> sfind (supd s y v) y <> None.
Proof.
  intros s y v H. destruct (sfind s y) as [[g w]|] eqn:F; [|congruence].
  rewrite (sfind_supd s y g w v F). discriminate.
Qed.
Lemma update_update : forall E y v w, update (update E y v) y w = update E y w.
Proof.
  induction E as [|s E IH]; intros y v w; cbn; [reflexivity|].
  destruct (sfind s y) as [b|] eqn:F; cbn.
  - pose proof (sfind_supd_some s y v) as H. destruct (sfind (supd s y v) y); [|destruct H; congruence].
    rewrite supd_supd. reflexivity.
  - rewrite F, IH. reflexivity.
Qed.
Lemma find_top : forall sc E y, sfind sc y = None -> find (sc :: E) y = find E y.
Proof. intros sc E y H. cbn. rewrite H. reflexivity. Qed.
Lemma update_top : forall sc E y v, sfind sc y = None -> update (sc :: E) y v = sc :: update E y v.
Proof. intros sc E y v H. cbn. rewrite H. reflexivity. Qed.

Section Proofs.
Variable x : ext.
Variable f0 : nat.
Variable round10 : Z -> Z -> Z.
Variable structs : bytes -> option (list (bytes * (Z * cty)) * any).
Variable X : cpp.
Hypothesis XT : forall c n c' n', cx_tmp X c n = cx_tmp X c' n' -> c = c' /\ n = n'.
Hypothesis XE : forall s, is_bytes s -> go_literal (cx_escape X s) = Some s.

Notation fuel := (S f0).
Notation exec := (exec x fuel round10 structs).
Notation exec1 := (exec1 x fuel round10 structs).
Notation eval := (eval structs).
Notation render := (render X).
Notation good := (good structs X round10).
Notation denotes := (denotes structs).
Notation kept := (kept X).

Lemma exec_app : forall a b E, exec (a ++ b) E = match exec a E with Some E' => exec b E' | None => None end.
Proof. induction a as [|s a IH]; intros b E; cbn; [reflexivity|]. destruct (exec1 s E); auto. Qed.
Lemma exec_cons : forall s l E, exec (s :: l) E = match exec1 s E with Some E' => exec l E' | None => None end.
Proof. reflexivity. Qed.
Lemma exec_step : forall s l E E' R, exec1 s E = Some E' -> exec l E' = R -> exec (s :: l) E = R.
Proof. intros s l E E' R H1 H2. rewrite exec_cons, H1. exact H2. Qed.
Lemma exec_app_step : forall a b E E' R, exec a E = Some E' -> exec b E' = R -> exec (a ++ b) E = R.
Proof. intros a b E E' R H1 H2. rewrite exec_app, H1. exact H2. Qed.
Lemma block_run : forall b E sc' E', exec b ([] :: E) = Some (sc' :: E') -> exec1 (SBlock b) E = Some E'.
Proof.
  intros b E sc' E' H. change (exec1 (SBlock b) E) with (match exec b ([] :: E) with Some E' => Some (tl E') | None => None end).
  rewrite H. reflexivity.
Qed.
Lemma exec_nil : forall E, exec [] E = Some E.
Proof. reflexivity. Qed.
Lemma exec1_decl : forall y e r b sc E, eval e = Some r -> declared round10 r = Some b -> sfind sc y = None ->
  exec1 (SDecl y e) (sc :: E) = Some (((y, b) :: sc) :: E).
Proof. intros y e r b sc E H1 H2 H3. cbn. rewrite H1, H2, H3. reflexivity. Qed.
Lemma exec1_block : forall b E, exec1 (SBlock b) E = match exec b ([] :: E) with Some E' => Some (tl E') | None => None end.
Proof. reflexivity. Qed.

(** [name] is none of the names tmp() will give. *)
Definition fresh_from (name : bytes) (n : nat) : Prop :=
  forall c m, (n <= m)%nat -> c = 107 \/ c = 118 -> name <> cx_tmp X c m.
(** The scope holds names given before [n] only. *)
Definition older (sc : scope) (n : nat) : Prop :=
  forall y, sfind sc y <> None -> exists c m, (m < n)%nat /\ y = cx_tmp X c m.

Lemma fresh_le : forall name n m, fresh_from name n -> (n <= m)%nat -> fresh_from name m.
Proof. intros name n m H L c k K. apply H. lia. Qed.
Lemma fresh_tmp : forall c n, fresh_from (cx_tmp X c n) (S n).
Proof. intros c n c' m L _ E. apply XT in E as [_ E]. lia. Qed.
Lemma older_le : forall sc n m, older sc n -> (n <= m)%nat -> older sc m.
Proof. intros sc n m H L y F. destruct (H y F) as (c & k & K & ->). exists c, k. split; [lia|reflexivity]. Qed.
Lemma older_nil : forall n, older [] n.
Proof. intros n y H. destruct H. reflexivity. Qed.
Lemma older_none : forall sc n c m, older sc n -> (n <= m)%nat -> sfind sc (cx_tmp X c m) = None.
Proof.
  intros sc n c m H L. destruct (sfind sc (cx_tmp X c m)) eqn:F; [|reflexivity].
  destruct (H (cx_tmp X c m)) as (c' & k & K & E); [congruence|]. apply XT in E as [_ E]. lia.
Qed.
Lemma older_cons : forall sc n c m b, older sc n -> (m < n)%nat -> older ((cx_tmp X c m, b) :: sc) n.
Proof.
  intros sc n c m b H L y F. cbn in F. destruct (beq (cx_tmp X c m) y) eqn:B.
  - apply beq_true in B. eauto.
  - auto.
Qed.

(** ** Types *)
Lemma enum_typedef : forall s t, enum_of (KTypedef s t) = enum_of t.
Proof. reflexivity. Qed.
Lemma enum_true : forall t, enum_of (true_type t) = enum_of t.
Proof. induction t; auto. Qed.
Lemma true_true : forall t, true_type (true_type t) = true_type t.
Proof. induction t; auto. Qed.
Lemma under_go : forall t, under (go_type t) = go_type (true_type t).
Proof. induction t; auto. Qed.
Lemma true_not_typedef : forall t s u, true_type t <> KTypedef s u.
Proof. induction t; intros; cbn; try discriminate. auto. Qed.
Lemma denotes_true : forall e t c v, denotes e (true_type t) c v -> denotes e t c v.
Proof. induction t; intros c v' H; auto. constructor. auto. Qed.
Lemma denotes_untype : forall e t c v, denotes e t c v -> denotes e (true_type t) c v.
Proof. intros e t c v H. induction H; cbn; try (econstructor; eauto; fail). exact IHdenotes. Qed.
Lemma direct_true : forall t, direct t = true -> true_type t = t.
Proof. destruct t; cbn; congruence. Qed.

(** The value of a scalar constant is one value. *)
Lemma denotes_one : forall e t c v u, denotes e t c v -> native (enum_of t) v -> denotes e t c u -> u = v.
Proof.
  intros e t c v u H. revert u. induction H; intros u N D;
    try (inversion D; subst; reflexivity); try (inversion N; fail).
  - inversion D; subst. apply IHdenotes; assumption.
  - inversion D; subst. destruct b, b0; try discriminate; reflexivity.
Qed.

(** ** Statements that declare a variable *)

Definition rendered (ec : bool) (c : cval) : Prop := forall t name n e blk n',
  good ec c t -> render c t name n = Some (e, blk, n') -> fresh_from name n ->
  (n <= n')%nat /\
  match blk with
  | None => exists r, eval e = Some r /\
      (ec = true -> exists g w u, declared round10 r = Some (g, w) /\ CoerceData x (enum_of t) w = Ok (u, true) /\
                      denotes true t c u /\ (kept t c -> w = u) /\ is_nil w = false) /\
      (ec = false -> (exists u, convert round10 (go_type t) r = Some u /\ denotes false t c u) /\
                     (forall g w, r = RVal g w -> g = GtBytes))
  | Some ss => exists g w0 v, eval e = Some (RVal g w0) /\ denotes ec t c v /\
      CoerceData x (enum_of t) v = Ok (v, true) /\ is_nil v = false /\ under g = g /\ under (go_type t) = g /\ assignable g (go_type t) = true /\
      forall E g', find E name = Some (g', w0) -> under g' = g -> exec1 (SBlock ss) E = Some (update E name v)
  end.

Lemma declare_elem : forall c t ch m n e b n2, rendered true c -> good true c t ->
  render c t (cx_tmp X ch m) n = Some (e, b, n2) -> (m < n)%nat ->
  (n <= n2)%nat /\
  exists g w u, CoerceData x (enum_of t) w = Ok (u, true) /\ denotes true t c u /\ (kept t c -> w = u) /\
  is_nil w = false /\
  forall sc E, older sc m ->
    exec (with_block (SDecl (cx_tmp X ch m) e) b) (sc :: E) = Some (((cx_tmp X ch m, (g, w)) :: sc) :: E).
Proof.
  intros c t ch m n e b n2 P G R L.
  destruct (P t _ n e b n2 G R (fresh_le _ _ _ (fresh_tmp ch m) L)) as [Ln H]. split; [exact Ln|].
  destruct b as [ss|].
  - destruct H as (g & w0 & v & Ev & D & C & Nn & U & _ & _ & H).
    exists g, v, v. split; [exact C|]. split; [exact D|]. split; [reflexivity|]. split; [exact Nn|].
    intros sc E O. pose proof (older_none sc m ch m O (le_n _)) as N.
    unfold with_block. rewrite exec_cons, (exec1_decl _ _ _ _ _ _ Ev eq_refl N), exec_cons.
    assert (F : find (((cx_tmp X ch m, (g, w0)) :: sc) :: E) (cx_tmp X ch m) = Some (g, w0)).
    { cbn. rewrite beq_refl. reflexivity. }
    rewrite (H _ g F U). cbn. rewrite beq_refl. reflexivity.
  - destruct H as (r & Ev & H & _). destruct (H eq_refl) as (g & w & u & Dc & C & D & K & Nn).
    exists g, w, u. split; [exact C|]. split; [exact D|]. split; [exact K|]. split; [exact Nn|].
    intros sc E O. unfold with_block.
    rewrite exec_cons, (exec1_decl _ _ _ _ _ _ Ev Dc (older_none sc m ch m O (le_n _))). reflexivity.
Qed.

(** ** Lists and sets *)

Definition rlist (op : bytes -> bytes -> gstmt) (et : cty) (name : bytes) :=
  fix go (l : list cval) (n : nat) : option (list gstmt * nat) :=
    match l with
    | [] => Some ([], n)
    | c' :: l' =>
      let v := tmp_v X n in
      match render c' et v (S n) with
      | Some (e, b, n1) =>
        match go l' n1 with
        | Some (ss, n2) => Some (with_block (SDecl v e) b ++ op name v :: ss, n2)
        | None => None
        end
      | None => None
      end
    end.
Lemma rlist_cons : forall op et name c l n, rlist op et name (c :: l) n =
  match render c et (tmp_v X n) (S n) with
  | Some (e, b, n1) =>
    match rlist op et name l n1 with
    | Some (ss, n2) => Some (with_block (SDecl (tmp_v X n) e) b ++ op name (tmp_v X n) :: ss, n2)
    | None => None
    end
  | None => None
  end.
Proof. reflexivity. Qed.

Lemma not_empty : forall t, IsEmptyType (enum_of t) = false.
Proof. intro t. unfold enum_of. destruct (true_type t) eqn:E; try reflexivity. destruct (true_not_typedef _ _ _ E). Qed.

(** The operations: Push and Add of a variable change the object as the library says. *)
Lemma exec_push : forall sc E name v g g' w acc et u, sfind sc name = None -> find E name = Some (g, AList 0 et acc) ->
  under g = GtTList -> sfind sc v = Some (g', w) -> IsEmptyType et = false -> CoerceData x et w = Ok (u, true) ->
  exec1 (SPush name v) (sc :: E) = Some (sc :: update E name (AList 0 et (acc ++ [u]))).
Proof.
  intros sc E name v g g' w acc et u N F U V Ie C.
  cbn -[find update]. rewrite (find_top sc E name N), F. cbn [find]. rewrite V, U.
  unfold tl_Push, tl_settype. cbn [tl_et tl_l]. rewrite Ie, C. cbn [obind run_out tl_et tl_l].
  rewrite (update_top sc E name _ N). reflexivity.
Qed.
Lemma exec_add : forall sc E name v g g' w p u p', sfind sc name = None ->
  find E name = Some (g, ASet 0 (ts_et p) (ts_size p) (ts_l p)) ->
  under g = GtTSet -> sfind sc v = Some (g', w) ->
  CoerceData x (ts_et p) w = Ok (u, true) -> CoerceData x (ts_et p) u = Ok (u, true) ->
  ts_Add x fuel p u = Ok p' ->
  exec1 (SAddTo name v) (sc :: E) = Some (sc :: update E name (ASet 0 (ts_et p') (ts_size p') (ts_l p'))).
Proof.
  intros sc E name v g g' w p u p' N F U V C Cu A.
  assert (A' : ts_Add x fuel (MkTs (ts_et p) (ts_size p) (ts_l p)) w = Ok p').
  { rewrite <- A. unfold ts_Add. cbn [ts_et ts_size ts_l]. rewrite C, Cu. reflexivity. }
  cbn -[find update ts_Add]. rewrite (find_top sc E name N), F. cbn [find]. rewrite V, U, A'. cbn [run_out].
  rewrite (update_top sc E name _ N). reflexivity.
Qed.

Lemma all_cons : forall A (P : A -> Prop) a l, all P (a :: l) <-> P a /\ all P l.
Proof. reflexivity. Qed.
Lemma fresh_ne : forall name n c, c = 107 \/ c = 118 -> fresh_from name n -> cx_tmp X c n <> name.
Proof. intros name n c Hc H E. apply (H c n (le_n _) Hc). auto. Qed.
Lemma sfind_cons : forall y b sc name, y <> name -> sfind ((y, b) :: sc) name = sfind sc name.
Proof. intros y b sc name H. cbn. rewrite beq_neq by exact H. reflexivity. Qed.

Lemma list_loop : forall et name cs n ss n', Forall (rendered true) cs -> all (fun c => good true c et) cs ->
  rlist SPush et name cs n = Some (ss, n') -> fresh_from name n ->
  (n <= n')%nat /\ exists vs, Forall2 (denotes true et) cs vs /\
  forall sc E g acc, older sc n -> sfind sc name = None ->
    find E name = Some (g, AList 0 (enum_of et) acc) -> under g = GtTList ->
    exists sc', exec ss (sc :: E) = Some (sc' :: update E name (AList 0 (enum_of et) (acc ++ vs))).
Proof.
  intros et name cs. induction cs as [|c cs IH]; intros n ss n' P G R Fr.
  - injection R as <- <-. split; [lia|]. exists []. split; [constructor|]. intros sc E g acc O N F U.
    exists sc. rewrite app_nil_r, (update_id _ _ _ _ F). reflexivity.
  - rewrite rlist_cons in R. apply all_cons in G as [G1 G2]. inversion P as [|? ? P1 P2]; subst.
    destruct (render c et (tmp_v X n) (S n)) as [[[e b] n1]|] eqn:R1; [|discriminate].
    destruct (rlist SPush et name cs n1) as [[ss1 n2]|] eqn:R2; [|discriminate]. apply some_pair in R as [<- <-].
    destruct (declare_elem c et 118 n (S n) e b n1 P1 G1 R1 (le_n _)) as (L1 & g1 & w & u & C & D & _ & _ & H1).
    assert (Fr1 : fresh_from name n1) by (apply (fresh_le name n); [exact Fr|lia]).
    destruct (IH n1 ss1 n2 P2 G2 R2 Fr1) as (L2 & vs & Dv & H2).
    split; [lia|]. exists (u :: vs). split; [constructor; assumption|].
    intros sc E g acc O N F U. specialize (H1 sc E O).
    set (sc1 := (cx_tmp X 118 n, (g1, w)) :: sc) in *.
    assert (N1 : sfind sc1 name = None).
    { unfold sc1. rewrite sfind_cons by (apply fresh_ne; [auto|exact Fr]). exact N. }
    assert (V : sfind sc1 (tmp_v X n) = Some (g1, w)) by (unfold sc1, tmp_v; cbn; rewrite beq_refl; reflexivity).
    pose proof (exec_push sc1 E name (tmp_v X n) g g1 w acc (enum_of et) u N1 F U V (not_empty et) C) as Hp.
    destruct (H2 sc1 (update E name (AList 0 (enum_of et) (acc ++ [u]))) g (acc ++ [u])) as (sc' & H3).
    { unfold sc1, tmp_v. apply older_cons; [apply (older_le _ n); [exact O|lia]|lia]. }
    { exact N1. }
    { eapply find_update; eauto. }
    { exact U. }
    exists sc'. apply (exec_app_step _ _ _ _ _ H1), (exec_step _ _ _ _ _ Hp). rewrite update_update, <- app_assoc in H3. exact H3.
Qed.

Lemma set_loop : forall et name cs n ss n', Forall (rendered true) cs -> all (fun c => good true c et) cs ->
  rlist SAddTo et name cs n = Some (ss, n') -> fresh_from name n ->
  (n <= n')%nat /\
  forall vs sc E g p p', Forall2 (denotes true et) cs vs -> Forall (native (enum_of et)) vs ->
    ts_run x fuel p (map SAdd vs) = Ok p' -> inv p -> ts_et p = enum_of et ->
    older sc n -> sfind sc name = None ->
    find E name = Some (g, ASet 0 (ts_et p) (ts_size p) (ts_l p)) -> under g = GtTSet ->
    exists sc', exec ss (sc :: E) = Some (sc' :: update E name (ASet 0 (ts_et p') (ts_size p') (ts_l p'))).
Proof.
  intros et name cs. induction cs as [|c cs IH]; intros n ss n' P G R Fr.
  - injection R as <- <-. split; [lia|]. intros vs sc E g p p' D _ Run _ _ O N F U.
    inversion D; subst. injection Run as <-. exists sc. rewrite (update_id _ _ _ _ F). reflexivity.
  - rewrite rlist_cons in R. apply all_cons in G as [G1 G2]. inversion P as [|? ? P1 P2]; subst.
    destruct (render c et (tmp_v X n) (S n)) as [[[e b] n1]|] eqn:R1; [|discriminate].
    destruct (rlist SAddTo et name cs n1) as [[ss1 n2]|] eqn:R2; [|discriminate]. apply some_pair in R as [<- <-].
    destruct (declare_elem c et 118 n (S n) e b n1 P1 G1 R1 (le_n _)) as (L1 & g1 & w & u & C & D & _ & _ & H1).
    assert (Fr1 : fresh_from name n1) by (apply (fresh_le name n); [exact Fr|lia]).
    destruct (IH n1 ss1 n2 P2 G2 R2 Fr1) as (L2 & H2).
    split; [lia|]. intros vs sc E g p p' Dv Nv Run I Et O N F U.
    inversion Dv as [|? v0 ? vs0 D0 Dv0]; subst. inversion Nv as [|? ? N0 Nv0]; subst.
    assert (u = v0) as -> by (eapply denotes_one; eauto).
    cbn [map ts_run] in Run.
    destruct (ts_Add x fuel p v0) as [q| |] eqn:A; try discriminate. cbn [obind] in Run.
    specialize (H1 sc E O).
    set (sc1 := (cx_tmp X 118 n, (g1, w)) :: sc) in *.
    assert (N1 : sfind sc1 name = None).
    { unfold sc1. rewrite sfind_cons by (apply fresh_ne; [auto|exact Fr]). exact N. }
    assert (V : sfind sc1 (tmp_v X n) = Some (g1, w)) by (unfold sc1, tmp_v; cbn; rewrite beq_refl; reflexivity).
    assert (Hp : exec1 (SAddTo name (tmp_v X n)) (sc1 :: E) = Some (sc1 :: update E name (ASet 0 (ts_et q) (ts_size q) (ts_l q)))).
    { apply (exec_add sc1 E name (tmp_v X n) g g1 w p v0 q N1 F U V); [rewrite Et; exact C|rewrite Et; apply coerce_native; exact N0|exact A]. }
    destruct (add_ok x f0 p v0 I) as (q' & A' & I' & Et' & _); [rewrite Et; exact N0|].
    assert (q' = q) as -> by congruence.
    destruct (H2 vs0 sc1 (update E name (ASet 0 (ts_et q) (ts_size q) (ts_l q))) g q p' Dv0 Nv0 Run I') as (sc' & H3).
    { congruence. }
    { unfold sc1, tmp_v. apply older_cons; [apply (older_le _ n); [exact O|lia]|lia]. }
    { exact N1. }
    { eapply find_update; eauto. }
    { exact U. }
    exists sc'. apply (exec_app_step _ _ _ _ _ H1), (exec_step _ _ _ _ _ Hp). rewrite update_update in H3. exact H3.
Qed.

Lemma add_loop_in : forall et a l l' v, add_loop x fuel et a l = Ok l' -> In v l' -> In v l \/ v = a.
Proof.
  intros et a l. induction l as [|e l IH]; intros l' v R H; cbn [add_loop] in R.
  - injection R as <-. destruct H.
  - destruct (Compare x fuel et a e) as [[cmp ok]| |]; try discriminate. cbn [obind] in R.
    destruct (ok && (0 <=? cmp)).
    + injection R as <-. destruct (0 <? cmp); [destruct H as [<-|H]; auto|auto].
    + destruct (add_loop x fuel et a l) as [r| |] eqn:L; try discriminate. injection R as <-.
      destruct H as [<-|H]; [left; left; reflexivity|]. destruct (IH r v eq_refl H); [left; right|right]; auto.
Qed.
Lemma run_in : forall vs p p' v, Forall (native (ts_et p)) vs -> inv p -> ts_run x fuel p (map SAdd vs) = Ok p' ->
  In v (ts_l p') -> In v (ts_l p) \/ In v vs.
Proof.
  induction vs as [|a vs IH]; intros p p' v Nv I R H; cbn [map ts_run] in R.
  - injection R as <-. auto.
  - inversion Nv as [|? ? N0 Nv0]; subst.
    destruct (add_ok x f0 p a I N0) as (q & A & I' & Et & _). rewrite A in R. cbn [obind] in R.
    destruct (IH q p' v) as [L|L]; auto; [rewrite Et; exact Nv0| |right; right; exact L].
    unfold ts_Add in A. rewrite coerce_native in A by exact N0. cbn [obind] in A.
    destruct (ts_l p) as [|e l] eqn:El.
    + injection A as <-. destruct L as [<-|[]]. right. left. reflexivity.
    + destruct (add_loop x fuel (ts_et p) a (e :: l)) as [r| |] eqn:AL; try discriminate. injection A as <-.
      destruct (add_loop_in _ _ _ _ _ AL L); [left|right; left]; auto.
Qed.

(** What a set of the values is. *)
Lemma set_contents : forall et n vs p, Forall (native et) vs -> no_new_minimum et (map SAdd vs) ->
  ts_run x fuel (NewTSet et n) (map SAdd vs) = Ok p ->
  (forall v, In v (ts_l p) -> In v vs) /\
  (forall v, In v vs -> exists v', In v' (ts_l p) /\ scalar_eq v' v) /\
  ForallOrdPairs (fun a b => ~ scalar_eq a b) (ts_l p).
Proof.
  intros et n vs p Nv M R.
  destruct (ts_history x f0 et n (map SAdd vs)) as (q & Rq & I & Et & _ & K); auto.
  { intros o Ho. apply in_map_iff in Ho as (v & <- & Hv). rewrite Forall_forall in Nv. exact (Nv v Hv). }
  assert (q = p) as -> by congruence. clear Rq.
  assert (In1 : forall v, In v (ts_l p) -> In v vs).
  { intros v Hv. destruct (run_in vs (NewTSet et n) p v) as [[]|]; auto.
    constructor; constructor. }
  destruct I as [I1 I2]. rewrite Et in I1. rewrite Forall_forall in Nv, I1.
  split; [exact In1|]. split.
  - intros v Hv. assert (Ad : added (map SAdd vs) v).
    { apply in_split in Hv as (a & b & ->). exists (map SAdd a), v, (map SAdd b).
      rewrite map_app. split; [reflexivity|]. split.
      - apply (key_eq et); try reflexivity; apply Nv, in_or_app; right; left; reflexivity.
      - intros b0 Hb. apply in_map_iff in Hb as (z & Ez & _). discriminate. }
    apply K in Ad; [|auto]. destruct Ad as (e & He & Ke). exists e. split; [exact He|].
    apply (key_eq et); auto.
  - clear K In1 R Et. revert I2 I1. generalize (ts_l p) as l. induction l as [|a l IH]; intros S N; constructor.
    + inversion S as [|? ? S1 S2]; subst. rewrite Forall_forall in S2 |- *. intros b Hb Eq.
      apply (key_eq et) in Eq; [|apply N; left; reflexivity|apply N; right; exact Hb].
      specialize (S2 b Hb). unfold gt_ in S2. rewrite Eq, str_lt_irrefl in S2. discriminate.
    + apply IH; [inversion S; auto|]. intros y Hy. apply N. right. exact Hy.
Qed.

(** ** Maps *)

Definition rmap (kt vt : cty) (name : bytes) :=
  fix go (l : list (cval * cval)) (n : nat) : option (list gstmt * nat) :=
    match l with
    | [] => Some ([], n)
    | (ck, cv) :: l' =>
      let k := tmp_k X n in
      let v := tmp_v X (S n) in
      match render ck kt k (S (S n)) with
      | Some (ek, bk, n1) =>
        match render cv vt v n1 with
        | Some (ev, bv, n2) =>
          match go l' n2 with
          | Some (ss, n3) =>
            Some (with_block (SDecl k ek) bk ++ with_block (SDecl v ev) bv ++
                  SSet name k v :: ss, n3)
          | None => None
          end
        | None => None
        end
      | None => None
      end
    end.
Lemma rmap_cons : forall kt vt name ck cv l n, rmap kt vt name ((ck, cv) :: l) n =
  match render ck kt (tmp_k X n) (S (S n)) with
  | Some (ek, bk, n1) =>
    match render cv vt (tmp_v X (S n)) n1 with
    | Some (ev, bv, n2) =>
      match rmap kt vt name l n2 with
      | Some (ss, n3) =>
        Some (with_block (SDecl (tmp_k X n) ek) bk ++ with_block (SDecl (tmp_v X (S n)) ev) bv ++
              SSet name (tmp_k X n) (tmp_v X (S n)) :: ss, n3)
      | None => None
      end
    | None => None
    end
  | None => None
  end.
Proof. reflexivity. Qed.

Lemma not_empty2 : forall t, (enum_of t =? STOP) || (enum_of t =? VOID) = false.
Proof. intro t. pose proof (not_empty t) as H. unfold IsEmptyType, mem in H. cbn [existsb] in H. rewrite orb_false_r in H. exact H. Qed.

(** Set looks at the converted key, and keeps the value as given unless keys are binary. *)
Lemma set_same : forall p kt vt wk k wv v, tm_kt p = enum_of kt -> tm_vt p = enum_of vt ->
  CoerceData x (enum_of kt) wk = Ok (k, true) -> CoerceData x (enum_of vt) wv = Ok (v, true) ->
  native (enum_of kt) k -> CoerceData x (enum_of vt) v = Ok (v, true) ->
  is_nil wk = false -> (enum_of kt = BINARY \/ wv = v) ->
  tm_Set x fuel p wk wv = tm_Set x fuel p k v.
Proof.
  intros p kt vt wk k wv v Ek Ev Ck Cv Nk Cv' Nn K. unfold tm_Set. rewrite Ek, Ev, !not_empty2.
  rewrite Ck, (coerce_native x _ _ Nk). cbn [obind negb]. rewrite Cv, Cv'. cbn [obind negb].
  destruct K as [K| ->].
  - rewrite K. reflexivity.
  - rewrite Nn, (native_not_nil _ _ Nk). reflexivity.
Qed.

Lemma exec_set : forall sc E name k v g gk gv wk wv p p', sfind sc name = None ->
  find E name = Some (g, AMap 0 (tm_kt p) (tm_vt p) (tm_size p) (tm_l p) (tm_b p)) -> under g = GtTMap ->
  sfind sc k = Some (gk, wk) -> sfind sc v = Some (gv, wv) -> tm_Set x fuel p wk wv = Ok p' ->
  exec1 (SSet name k v) (sc :: E) =
    Some (sc :: update E name (AMap 0 (tm_kt p') (tm_vt p') (tm_size p') (tm_l p') (tm_b p'))).
Proof.
  intros sc E name k v g gk gv wk wv p p' N F U Fk Fv Sx.
  assert (Sx' : tm_Set x fuel (MkTm (tm_kt p) (tm_vt p) (tm_size p) (tm_l p) (tm_b p)) wk wv = Ok p').
  { destruct p. exact Sx. }
  cbn -[find update tm_Set]. rewrite (find_top sc E name N), F. cbn [find]. rewrite Fk, Fv, U, Sx'. cbn [run_out].
  rewrite (update_top sc E name _ N). reflexivity.
Qed.

(** Values that the type of a member or element accepts stay the same when accepted again. *)
Definition settled (t : cty) (c : cval) : Prop :=
  forall w u, CoerceData x (enum_of t) w = Ok (u, true) -> denotes true t c u -> CoerceData x (enum_of t) u = Ok (u, true).
Lemma denotes_settled : forall t c u, denotes true t c u -> CoerceData x (enum_of t) u = Ok (u, true).
Proof.
  intros t c u H. remember true as el eqn:Eel. induction H; subst; try discriminate; try reflexivity.
  - rewrite enum_typedef. auto.
  - apply (coerce_native x BYTE). constructor. pose proof (Z.mod_pos_bound z 256). unfold in_u. lia.
  - apply (coerce_native x I16). constructor. exact H.
  - apply (coerce_native x I32). constructor. exact H.
  - apply (coerce_native x I64). constructor. exact H.
  - apply (coerce_native x I32). constructor. exact H.
Qed.

Lemma map_loop : forall kt vt name kvs n ss n',
  Forall (fun kv => rendered true (fst kv) /\ rendered true (snd kv)) kvs ->
  all (fun kv => good true (fst kv) kt /\ good true (snd kv) vt /\ (enum_of kt = BINARY \/ kept vt (snd kv))) kvs ->
  scalar_type (enum_of kt) = true ->
  rmap kt vt name kvs n = Some (ss, n') -> fresh_from name n ->
  (n <= n')%nat /\
  forall ks, Forall2 (fun kv k => denotes true kt (fst kv) k) kvs ks -> Forall (native (enum_of kt)) ks ->
  exists ps, Forall2 (fun c p => denotes true kt (fst c) (fst p) /\ denotes true vt (snd c) (snd p)) kvs ps /\
    (forall k v, In (k, v) ps -> native (enum_of kt) k /\ CoerceData x (enum_of vt) v = Ok (v, true)) /\
    forall sc E g h p size,
    (forall k v, In (k, v) h -> native (enum_of kt) k /\ CoerceData x (enum_of vt) v = Ok (v, true)) ->
    tm_run x fuel (NewTMap (enum_of kt) (enum_of vt) size) h = Ok p ->
    older sc n -> sfind sc name = None ->
    find E name = Some (g, AMap 0 (tm_kt p) (tm_vt p) (tm_size p) (tm_l p) (tm_b p)) -> under g = GtTMap ->
    exists sc' p', exec ss (sc :: E) =
        Some (sc' :: update E name (AMap 0 (tm_kt p') (tm_vt p') (tm_size p') (tm_l p') (tm_b p'))) /\
      tm_run x fuel (NewTMap (enum_of kt) (enum_of vt) size) (h ++ ps) = Ok p'.
Proof.
  intros kt vt name kvs. induction kvs as [|[ck cv] kvs IH]; intros n ss n' P G Sk R Fr.
  - injection R as <- <-. split; [lia|]. intros ks Dk Nk. exists [].
    split; [constructor|]. split; [intros k v []|]. intros sc E g h p size Hh Run O N F U.
    exists sc, p. rewrite (update_id _ _ _ _ F), app_nil_r. split; [reflexivity|exact Run].
  - rewrite rmap_cons in R. apply all_cons in G as [[G1 [G2 G3]] G4]. inversion P as [|? ? [P1 P2] P3]; subst.
    cbn [fst snd] in *.
    destruct (render ck kt (tmp_k X n) (S (S n))) as [[[ek bk] n1]|] eqn:R1; [|discriminate].
    destruct (render cv vt (tmp_v X (S n)) n1) as [[[ev bv] n2]|] eqn:R2; [|discriminate].
    destruct (rmap kt vt name kvs n2) as [[ss1 n3]|] eqn:R3; [|discriminate]. apply some_pair in R as [<- <-].
    destruct (declare_elem ck kt 107 n (S (S n)) ek bk n1 P1 G1 R1) as (L1 & gk & wk & k & Ck & Dk & _ & Nn & H1); [lia|].
    destruct (declare_elem cv vt 118 (S n) n1 ev bv n2 P2 G2 R2) as (L2 & gv & wv & v & Cv & Dv & Kv & _ & H2); [lia|].
    assert (Fr1 : fresh_from name n2) by (apply (fresh_le name n); [exact Fr|lia]).
    destruct (IH n2 ss1 n3 P3 G4 Sk R3 Fr1) as (L3 & H3).
    split; [lia|]. intros ks Dks Nks.
    inversion Dks as [|? k0 ? ks0 D0 Dks0]; subst. inversion Nks as [|? ? N0 Nks0]; subst. cbn [fst] in D0.
    assert (k = k0) as -> by (eapply denotes_one; eauto).
    pose proof (denotes_settled vt cv v Dv) as Cv'.
    destruct (H3 ks0 Dks0 Nks0) as (ps & Dps & Hps & H4). clear H3.
    exists ((k0, v) :: ps). split; [constructor; [split; assumption|exact Dps]|].
    split; [intros k1 v1 [Q1|Q1]; [injection Q1 as <- <-; split; assumption|auto]|].
    intros sc E g h p size Hh Run O N F U.
    specialize (H1 sc E O).
    set (sc1 := (cx_tmp X 107 n, (gk, wk)) :: sc) in *.
    assert (O1 : older sc1 (S n)) by (unfold sc1; apply older_cons; [apply (older_le _ n); [exact O|lia]|lia]).
    specialize (H2 sc1 E O1).
    set (sc2 := (cx_tmp X 118 (S n), (gv, wv)) :: sc1) in *.
    assert (O2 : older sc2 n2) by (unfold sc2; apply older_cons; [apply (older_le _ (S n)); [exact O1|lia]|lia]).
    assert (N2 : sfind sc2 name = None).
    { unfold sc2, sc1. rewrite sfind_cons by (intro Q; apply (Fr 118 (S n)); [lia|auto|auto]).
      rewrite sfind_cons by (apply fresh_ne; [auto|exact Fr]). exact N. }
    assert (Fk : sfind sc2 (tmp_k X n) = Some (gk, wk)).
    { unfold sc2, sc1, tmp_k. rewrite sfind_cons by (intro Q; apply XT in Q as [Q _]; discriminate).
      cbn. rewrite beq_refl. reflexivity. }
    assert (Fv : sfind sc2 (tmp_v X (S n)) = Some (gv, wv)).
    { unfold sc2, tmp_v. cbn. rewrite beq_refl. reflexivity. }
    assert (Hh' : forall k v0, In (k, v0) (h ++ [(k0, v)]) -> native (enum_of kt) k /\ CoerceData x (enum_of vt) v0 = Ok (v0, true)).
    { intros k v0 Hk. apply in_app_or in Hk as [Hk|[Hk|[]]]; [auto|]. injection Hk as <- <-. split; assumption. }
    destruct (tm_history x f0 (enum_of kt) (enum_of vt) size h Sk (not_empty vt) Hh) as (q0 & Q0 & _ & K1 & K2 & _).
    assert (q0 = p) as -> by congruence.
    destruct (tm_history x f0 (enum_of kt) (enum_of vt) size (h ++ [(k0, v)]) Sk (not_empty vt) Hh') as (q & Q & _).
    assert (Sx : tm_Set x fuel p k0 v = Ok q).
    { rewrite tm_run_app, Run in Q. cbn [obind tm_run] in Q. destruct (tm_Set x fuel p k0 v) as [q1| |]; try discriminate.
      exact Q. }
    assert (Sx' : tm_Set x fuel p wk wv = Ok q).
    { rewrite <- Sx. apply (set_same p kt vt); auto. destruct G3 as [G3|G3]; [left; exact G3|right; auto]. }
    pose proof (exec_set sc2 E name (tmp_k X n) (tmp_v X (S n)) g gk gv wk wv p q N2 F U Fk Fv Sx') as Hp.
    destruct (H4 sc2 (update E name (AMap 0 (tm_kt q) (tm_vt q) (tm_size q) (tm_l q) (tm_b q))) g
                (h ++ [(k0, v)]) q size Hh' Q O2 N2) as (sc' & p' & Ex & Run').
    { eapply find_update; eauto. }
    { exact U. }
    exists sc', p'. split.
    + apply (exec_app_step _ _ _ _ _ H1), (exec_app_step _ _ _ _ _ H2), (exec_step _ _ _ _ _ Hp).
      rewrite update_update in Ex. exact Ex.
    + rewrite <- app_assoc in Run'. exact Run'.
Qed.

Lemma elookup_in : forall kt es k v, Forall (fun e => native kt (fst e)) es -> NoDup (ekeys es) ->
  In (k, v) es -> elookup es k = Some v.
Proof.
  intros kt es k v. induction es as [|[k' v'] es IH]; intros N D H; [destruct H|].
  cbn in D. inversion D as [|? ? D1 D2]; subst. inversion N as [|? ? N1 N2]; subst. cbn [elookup].
  destruct H as [Q|H].
  - injection Q as -> ->. rewrite str_eq_refl. reflexivity.
  - destruct (str_eq (key k) (key k')) eqn:Q; [|auto]. apply str_eq_iff in Q. destruct D1.
    rewrite <- Q. unfold ekeys. apply in_map_iff. exists (k, v). split; [reflexivity|exact H].
Qed.
Lemma elookup_some : forall es k v, elookup es k = Some v -> exists k', In (k', v) es /\ key k' = key k.
Proof.
  induction es as [|[k' v'] es IH]; intros k v H; cbn in H; [discriminate|].
  destruct (str_eq (key k) (key k')) eqn:Q.
  - injection H as ->. apply str_eq_iff in Q. exists k'. split; [left; reflexivity|auto].
  - destruct (IH k v H) as (k2 & H2 & E2). exists k2. split; [right; exact H2|exact E2].
Qed.

Lemma map_contents : forall kt vt size ps p, scalar_type kt = true -> IsEmptyType vt = false ->
  (forall k v, In (k, v) ps -> native kt k /\ CoerceData x vt v = Ok (v, true)) ->
  tm_run x fuel (NewTMap kt vt size) ps = Ok p ->
  tm_kt p = kt /\ tm_vt p = vt /\
  (forall k v, In (k, v) (tm_l p ++ tm_b p) -> last_set ps k v) /\
  (forall k v, In k (map fst ps) -> last_set ps k v -> exists k', In (k', v) (tm_l p ++ tm_b p) /\ scalar_eq k' k) /\
  ForallOrdPairs (fun a b => ~ scalar_eq (fst a) (fst b)) (tm_l p ++ tm_b p).
Proof.
  intros kt vt size ps p Sk Ev Hp Run.
  destruct (tm_history x f0 kt vt size ps Sk Ev Hp) as (q & Rq & I & K1 & K2 & _ & L & _).
  assert (q = p) as -> by congruence. destruct I as [I1 I2 I3 I4 _].
  assert (Es : tm_l p ++ tm_b p = entries p).
  { unfold entries. destruct (tm_kt p =? BINARY); rewrite I2; [apply app_nil_r|reflexivity]. }
  rewrite Es. rewrite K1 in I3.
  assert (I3' := I3). rewrite Forall_forall in I3'.
  split; [exact K1|]. split; [exact K2|]. split; [|split].
  - intros k v H. apply L; [exact (I3' _ H)|]. eapply elookup_in; eauto.
  - intros k v Hi H. assert (Hk : native kt k).
    { apply in_map_iff in Hi as ([k1 v1] & <- & Hi). destruct (Hp k1 v1 Hi) as [Nk _]. exact Nk. }
    apply L in H; [|exact Hk]. apply elookup_some in H as (k' & H & Ek). exists k'. split; [exact H|].
    apply (key_eq kt); auto. exact (I3' _ H).
  - clear L Es K1 K2. revert I3' I4. generalize (entries p) as l. induction l as [|a l IH]; intros N D; constructor.
    + cbn in D. inversion D as [|? ? D1 D2]; subst. rewrite Forall_forall. intros b Hb Eq. apply D1.
      apply (key_eq kt) in Eq; [|apply (N a); left; reflexivity|apply (N b); right; exact Hb].
      rewrite Eq. unfold ekeys. apply in_map_iff. exists b. split; [reflexivity|exact Hb].
    + apply IH; [|inversion D; auto]. intros y Hy. apply N. right. exact Hy.
Qed.

(** ** Structs *)

Definition rstruct (ms : list (Z * bytes * cty)) (name : bytes) :=
  fix go (l : list (cval * cval)) (n : nat) : option (list gstmt * nat) :=
    match l with
    | [] => Some ([], n)
    | (CStr f, c') :: l' =>
      match field_type ms f with
      | None => None
      | Some ft =>
        if direct ft then
          match render c' ft name n with
          | Some (e, _, n1) =>
            match go l' n1 with
            | Some (ss, n2) => Some (SField name (publicize f) e :: ss, n2)
            | None => None
            end
          | None => None
          end
        else
          let v := tmp_v X (S n) in
          match render c' ft v (S (S n)) with
          | Some (e, b, n1) =>
            match go l' n1 with
            | Some (ss, n2) =>
              Some (with_block (SDecl v e) b ++ SFieldVar name (publicize f) v :: ss, n2)
            | None => None
            end
          | None => None
          end
      end
    | _ => None
    end.
Lemma rstruct_cons : forall ms name f c l n, rstruct ms name ((CStr f, c) :: l) n =
  match field_type ms f with
  | None => None
  | Some ft =>
    if direct ft then
      match render c ft name n with
      | Some (e, _, n1) =>
        match rstruct ms name l n1 with
        | Some (ss, n2) => Some (SField name (publicize f) e :: ss, n2)
        | None => None
        end
      | None => None
      end
    else
      match render c ft (tmp_v X (S n)) (S (S n)) with
      | Some (e, b, n1) =>
        match rstruct ms name l n1 with
        | Some (ss, n2) =>
          Some (with_block (SDecl (tmp_v X (S n)) e) b ++ SFieldVar name (publicize f) (tmp_v X (S n)) :: ss, n2)
        | None => None
        end
      | None => None
      end
  end.
Proof. reflexivity. Qed.

Lemma field_type_in : forall ms id f ft, NoDup (map (fun m => member_name (snd (fst m))) ms) ->
  In (id, f, ft) ms -> field_type ms f = Some ft.
Proof.
  induction ms as [|[[id0 f1] t0] ms IH]; intros id f ft D H; [destruct H|].
  cbn in D. inversion D as [|? ? D1 D2]; subst. cbn [field_type].
  destruct H as [Q|H].
  - injection Q as -> -> ->. assert (field_type ms f = None) as ->.
    { clear IH D D2. induction ms as [|[[id0 f1] t0] ms IH]; [reflexivity|]. cbn in D1 |- *.
      rewrite IH by tauto. rewrite beq_neq; [reflexivity|]. intros ->. tauto. }
    rewrite beq_refl. reflexivity.
  - rewrite (IH id f ft D2 H). reflexivity.
Qed.
Lemma mfind_in : forall ms dms id f ft, declare ms = Some dms -> NoDup (map (fun m => member_name (snd (fst m))) ms) ->
  In (id, f, ft) ms -> mfind dms (member_name f) = Some (id, ft).
Proof.
  intros ms dms id f ft Dc D H. unfold declare in Dc. destruct (forallb _ ms); [|discriminate]. injection Dc as <-.
  induction ms as [|[[id0 f1] t0] ms IH]; [destruct H|].
  cbn in D. inversion D as [|? ? D1 D2]; subst. cbn [map mfind fst snd].
  destruct H as [Q|H].
  - injection Q as -> -> ->. rewrite beq_refl. reflexivity.
  - rewrite beq_neq; [auto|]. intros Q. apply D1. rewrite Q. apply in_map_iff. exists (id, f, ft). auto.
Qed.

Lemma attr_fst : forall l id v, map fst (attr_set l id v) = map fst l.
Proof.
  induction l as [|[i w] l IH]; intros id v; cbn; [reflexivity|].
  destruct (i =? id); cbn; [reflexivity|]. rewrite IH. reflexivity.
Qed.
Lemma attr_same : forall l id v, In id (map fst l) -> attribute (attr_set l id v) id = v.
Proof.
  induction l as [|[i w] l IH]; intros id v H; [destruct H|]. unfold attribute in *. cbn.
  destruct (Z.eqb_spec i id) as [->|Q]; cbn.
  - rewrite Z.eqb_refl. reflexivity.
  - destruct H as [H|H]; [cbn in H; congruence|].
    destruct (Z.eqb_spec id i); [congruence|]. apply IH. exact H.
Qed.
Lemma attr_other : forall l id id' v, id' <> id -> attribute (attr_set l id v) id' = attribute l id'.
Proof.
  induction l as [|[i w] l IH]; intros id id' v Q; [reflexivity|]. unfold attribute in *. cbn.
  destruct (Z.eqb_spec i id) as [->|Q']; cbn.
  - destruct (Z.eqb_spec id' id); [congruence|]. reflexivity.
  - destruct (id' =? i); [reflexivity|]. apply IH. exact Q.
Qed.

(** A variable for a member that is assigned through one. *)
Lemma declare_member : forall c t m n e b n2, rendered false c -> good false c t -> direct t = false ->
  match true_type t with KBinary | KList _ | KSet _ | KMap _ _ | KStruct _ _ => True | _ => False end ->
  render c t (cx_tmp X 118 m) n = Some (e, b, n2) -> (m < n)%nat ->
  (n <= n2)%nat /\
  exists g w, denotes false t c w /\ assignable g (go_type t) = true /\
  forall sc E, older sc m ->
    exec (with_block (SDecl (cx_tmp X 118 m) e) b) (sc :: E) = Some (((cx_tmp X 118 m, (g, w)) :: sc) :: E).
Proof.
  intros c t m n e b n2 P G Di Tt R L.
  destruct (P t _ n e b n2 G R (fresh_le _ _ _ (fresh_tmp 118 m) L)) as [Ln H]. split; [exact Ln|].
  destruct b as [ss|].
  - destruct H as (g & w0 & v & Ev & D & C & Nn & U & _ & A & H).
    exists g, v. split; [exact D|]. split; [exact A|].
    intros sc E O. pose proof (older_none sc m 118 m O (le_n _)) as N.
    unfold with_block. rewrite exec_cons, (exec1_decl _ _ _ _ _ _ Ev eq_refl N), exec_cons.
    assert (F : find (((cx_tmp X 118 m, (g, w0)) :: sc) :: E) (cx_tmp X 118 m) = Some (g, w0)).
    { cbn. rewrite beq_refl. reflexivity. }
    rewrite (H _ g F U). cbn. rewrite beq_refl. reflexivity.
  - destruct H as (r & Ev & _ & H). destruct (H eq_refl) as [(u & Cv & D) Hr].
    assert (exists g w, r = RVal g w) as (g & w & ->).
    { destruct (true_type t) eqn:T; try destruct Tt;
        destruct c; cbn [Consts.render] in R; rewrite T in R; try discriminate;
        try (match type of R with match ?a with _ => _ end = _ => destruct a as [[? ?]|] end; discriminate).
      apply some_pair in R as [R _]. injection R as <-.
      cbn in Ev. destruct (go_literal (cx_escape X s)); [|discriminate]. cbn in Ev. injection Ev as <-. eauto. }
    cbn [convert] in Cv. unfold guard in Cv. destruct (assignable g (go_type t)) eqn:A; [|discriminate].
    injection Cv as ->.
    exists g, u. split; [exact D|]. split; [exact A|].
    intros sc E O. unfold with_block.
    rewrite exec_cons, (exec1_decl _ _ _ _ _ _ Ev eq_refl (older_none sc m 118 m O (le_n _))). reflexivity.
Qed.
Lemma direct_block : forall c t name n e b n', direct t = true -> render c t name n = Some (e, b, n') -> b = None.
Proof.
  intros c t name n e b n' D R. pose proof (direct_true t D) as T.
  destruct c; cbn [Consts.render] in R; rewrite T in R; destruct t; try discriminate; congruence.
Qed.

Lemma exec_field : forall E name fn g sn fc attrs go dms v0 id ft r u,
  find E name = Some (g, AStruct 0 sn fc attrs) -> under g = GtPtr go -> structs go = Some (dms, v0) ->
  mfind dms fn = Some (id, ft) -> convert round10 (go_type ft) r = Some u ->
  set_field round10 structs E name fn r = Some (update E name (AStruct 0 sn fc (attr_set attrs id u))).
Proof.
  intros E name fn g sn fc attrs go dms v0 id ft r u F U S M C. unfold set_field. rewrite F, U, S, M, C. reflexivity.
Qed.

Lemma struct_loop : forall sn ms dms v0 name fc kvs n ss n',
  NoDup (map (fun m => fst (fst m)) ms) -> NoDup (map (fun m => member_name (snd (fst m))) ms) ->
  declare ms = Some dms -> structs (publicize sn) = Some (dms, v0) ->
  Forall (fun kv => rendered false (snd kv)) kvs -> NoDup (map fst kvs) ->
  all (fun kv => exists f id ft, fst kv = CStr f /\ In (id, f, ft) ms /\ settable f ft /\ good false (snd kv) ft) kvs ->
  rstruct ms name kvs n = Some (ss, n') -> fresh_from name n ->
  (n <= n')%nat /\
  forall attrs, map fst attrs = map (fun m => fst (fst m)) ms ->
  exists attrs', map fst attrs' = map fst attrs /\
    (forall id f ft c, In (id, f, ft) ms -> In (CStr f, c) kvs -> denotes false ft c (attribute attrs' id)) /\
    (forall id f ft, In (id, f, ft) ms -> (forall c, ~ In (CStr f, c) kvs) -> attribute attrs' id = attribute attrs id) /\
    forall sc E g, older sc n -> sfind sc name = None ->
      find E name = Some (g, AStruct 0 sn fc attrs) -> under g = GtPtr (publicize sn) ->
      exists sc', exec ss (sc :: E) = Some (sc' :: update E name (AStruct 0 sn fc attrs')).
Proof.
  intros sn ms dms v0 name fc kvs. induction kvs as [|[kf c] kvs IH]; intros n ss n' Di Dn Dc St P Dk G R Fr.
  - injection R as <- <-. split; [lia|]. intros attrs Ids. exists attrs.
    split; [reflexivity|]. split; [intros id f ft c _ []|]. split; [reflexivity|].
    intros sc E g O N F U. exists sc. rewrite (update_id _ _ _ _ F). reflexivity.
  - apply all_cons in G as [(f & id & ft & Kf & Im & [Sm Sd] & Gc) G2]. cbn [fst snd] in Kf, Gc. subst kf.
    inversion P as [|? ? P1 P2]; subst. cbn [snd] in P1.
    cbn in Dk. inversion Dk as [|? ? Dk1 Dk2]; subst.
    rewrite rstruct_cons, (field_type_in ms id f ft Dn Im) in R.
    pose proof (mfind_in ms dms id f ft Dc Dn Im) as Mf. rewrite Sm in Mf.
    (* one more member set *)
    assert (Step : forall u, denotes false ft c u ->
      forall attrs attrs', map fst attrs = map (fun m => fst (fst m)) ms ->
      map fst attrs' = map fst (attr_set attrs id u) ->
      (forall id f ft c, In (id, f, ft) ms -> In (CStr f, c) kvs -> denotes false ft c (attribute attrs' id)) ->
      (forall id0 f ft, In (id0, f, ft) ms -> (forall c, ~ In (CStr f, c) kvs) -> attribute attrs' id0 = attribute (attr_set attrs id u) id0) ->
      map fst attrs' = map fst attrs /\
      (forall id0 f0 ft0 c0, In (id0, f0, ft0) ms -> In (CStr f0, c0) ((CStr f, c) :: kvs) -> denotes false ft0 c0 (attribute attrs' id0)) /\
      (forall id0 f0 ft0, In (id0, f0, ft0) ms -> (forall c0, ~ In (CStr f0, c0) ((CStr f, c) :: kvs)) -> attribute attrs' id0 = attribute attrs id0)).
    { intros u Du attrs attrs' Ids Ids' A1 A2. split; [rewrite Ids', attr_fst; reflexivity|]. split.
      - intros id0 f1 ft0 c0 I0 [Q|Q]; [|eauto]. injection Q as <- <-.
        assert (ft0 = ft) as -> by (pose proof (field_type_in ms id0 f ft0 Dn I0); pose proof (field_type_in ms id f ft Dn Im); congruence).
        assert (id0 = id) as -> by (pose proof (mfind_in ms dms id0 f ft Dc Dn I0) as M0; rewrite Sm in M0; congruence).
        rewrite (A2 id f ft Im).
        + rewrite attr_same; [exact Du|]. rewrite Ids. apply in_map_iff. exists (id, f, ft). auto.
        + intros c1 H1. apply Dk1. apply in_map_iff. exists (CStr f, c1). auto.
      - intros id0 f1 ft0 I0 H0. rewrite (A2 id0 f1 ft0 I0).
        + apply attr_other. intros ->.
          assert (f1 = f) as ->.
          { clear - Di I0 Im. induction ms as [|[[i a] b] ms IH]; [destruct I0|]. cbn in Di.
            inversion Di as [|? ? Q1 Q2]; subst.
            destruct I0 as [I0|I0], Im as [Im|Im].
            - congruence.
            - injection I0 as -> -> ->. destruct Q1. apply in_map_iff. exists (id, f, ft). auto.
            - injection Im as -> -> ->. destruct Q1. apply in_map_iff. exists (id, f1, ft0). auto.
            - auto. }
          apply (H0 c). left. reflexivity.
        + intros c1 H1. apply (H0 c1). right. exact H1. }
    destruct (direct ft) eqn:Df.
    + destruct (render c ft name n) as [[[e b] n1]|] eqn:R1; [|discriminate].
      destruct (rstruct ms name kvs n1) as [[ss1 n2]|] eqn:R2; [|discriminate]. apply some_pair in R as [<- <-].
      destruct (P1 ft name n e b n1 Gc R1 Fr) as [L1 H].
      pose proof (direct_block c ft name n e b n1 Df R1) as ->.
      destruct H as (r & Ev & _ & H). destruct (H eq_refl) as [(u & Cv & Du) _]. clear H.
      assert (Fr1 : fresh_from name n1) by (apply (fresh_le name n); [exact Fr|lia]).
      destruct (IH n1 ss1 n2 Di Dn Dc St P2 Dk2 G2 R2 Fr1) as (L2 & H2).
      split; [lia|]. intros attrs Ids.
      destruct (H2 (attr_set attrs id u)) as (attrs' & A0 & A1 & A2 & H3); [rewrite attr_fst; exact Ids|].
      exists attrs'. destruct (Step u Du attrs attrs' Ids A0 A1 A2) as (S1 & S2 & S3).
      split; [exact S1|]. split; [exact S2|]. split; [exact S3|]. intros sc E g O N F U.
      assert (F' : find (sc :: E) name = Some (g, AStruct 0 sn fc attrs)) by (rewrite find_top; assumption).
      pose proof (exec_field (sc :: E) name (publicize f) g sn fc attrs (publicize sn) dms v0 id ft r u F' U St Mf Cv) as Hf.
      destruct (H3 sc (update E name (AStruct 0 sn fc (attr_set attrs id u))) g) as (sc' & Ex).
      { apply (older_le _ n); [exact O|lia]. }
      { exact N. }
      { eapply find_update; eauto. }
      { exact U. }
      exists sc'.
      rewrite update_update in Ex. rewrite (update_top sc E name _ N) in Hf.
      apply (exec_step _ _ _ (sc :: update E name (AStruct 0 sn fc (attr_set attrs id u)))); [|exact Ex].
      cbn -[set_field find update]. rewrite Ev. exact Hf.
    + destruct (render c ft (tmp_v X (S n)) (S (S n))) as [[[e b] n1]|] eqn:R1; [|discriminate].
      destruct (rstruct ms name kvs n1) as [[ss1 n2]|] eqn:R2; [|discriminate]. apply some_pair in R as [<- <-].
      destruct Sd as [Sd|Sd]; [discriminate|].
      destruct (declare_member c ft (S n) (S (S n)) e b n1 P1 Gc Df Sd R1) as (L1 & gv & u & Du & As & H1); [lia|].
      assert (Fr1 : fresh_from name n1) by (apply (fresh_le name n); [exact Fr|lia]).
      destruct (IH n1 ss1 n2 Di Dn Dc St P2 Dk2 G2 R2 Fr1) as (L2 & H2).
      split; [lia|]. intros attrs Ids.
      destruct (H2 (attr_set attrs id u)) as (attrs' & A0 & A1 & A2 & H3); [rewrite attr_fst; exact Ids|].
      exists attrs'. destruct (Step u Du attrs attrs' Ids A0 A1 A2) as (S1 & S2 & S3).
      split; [exact S1|]. split; [exact S2|]. split; [exact S3|]. intros sc E g O N F U.
      assert (O1 : older sc (S n)) by (apply (older_le _ n); [exact O|lia]).
      specialize (H1 sc E O1).
      set (sc1 := (cx_tmp X 118 (S n), (gv, u)) :: sc) in *.
      assert (N1 : sfind sc1 name = None).
      { unfold sc1. rewrite sfind_cons by (intro Q; apply (Fr 118 (S n)); [lia|auto|auto]). exact N. }
      assert (F' : find (sc1 :: E) name = Some (g, AStruct 0 sn fc attrs)) by (rewrite find_top; assumption).
      assert (Cv : convert round10 (go_type ft) (RVal gv u) = Some u) by (cbn; rewrite As; reflexivity).
      pose proof (exec_field (sc1 :: E) name (publicize f) g sn fc attrs (publicize sn) dms v0 id ft (RVal gv u) u F' U St Mf Cv) as Hf.
      rewrite (update_top sc1 E name _ N1) in Hf.
      destruct (H3 sc1 (update E name (AStruct 0 sn fc (attr_set attrs id u))) g) as (sc' & Ex).
      { unfold sc1. apply older_cons; [apply (older_le _ n); [exact O|lia]|lia]. }
      { exact N1. }
      { eapply find_update; eauto. }
      { exact U. }
      exists sc'. rewrite update_update in Ex.
      apply (exec_app_step _ _ _ _ _ H1).
      apply (exec_step _ _ _ (sc1 :: update E name (AStruct 0 sn fc (attr_set attrs id u)))); [|exact Ex].
      assert (Fv : find (sc1 :: E) (tmp_v X (S n)) = Some (gv, u)) by (unfold sc1, tmp_v; cbn; rewrite beq_refl; reflexivity).
      cbn -[set_field find update]. rewrite Fv. exact Hf.
Qed.

(** ** All constants *)

Lemma cval_ind' : forall P : cval -> Prop,
  (forall z, P (CInt z)) -> (forall b, P (CDbl b)) -> (forall s, P (CStr s)) ->
  (forall l, Forall P l -> P (CList l)) ->
  (forall l, Forall (fun kv => P (fst kv) /\ P (snd kv)) l -> P (CMap l)) ->
  forall c, P c.
Proof.
  intros P H1 H2 H3 H4 H5. fix IH 1. destruct c as [z|b|s|l|l].
  - apply H1. - apply H2. - apply H3.
  - apply H4. induction l as [|c l IHl]; constructor; [apply IH|exact IHl].
  - apply H5. induction l as [|[k v] l IHl]; constructor; [split; [apply (IH k)|apply (IH v)]|exact IHl].
Qed.

Lemma assignable_named : forall g d, match g with GtBytes | GtTMap | GtTList | GtTSet | GtPtr _ => True | _ => False end ->
  under d = g -> assignable g d = true.
Proof.
  intros g d H U. destruct g; try destruct H; unfold assignable; destruct d; cbn in U |- *; try discriminate;
    try rewrite U; try reflexivity; try (injection U as ->; apply beq_refl); apply beq_refl.
Qed.
Lemma fits_s : forall b z, in_s b z -> fits b z = true.
Proof. intros b z H. unfold fits, in_s in *. lia. Qed.
Lemma in_s_le : forall a b z, 0 < a <= b -> in_s a z -> in_s b z.
Proof.
  intros a b z L H. unfold in_s in *. pose proof (Z.pow_le_mono_r 2 (a - 1) (b - 1)). lia.
Qed.

Lemma rendered_int : forall ec z, rendered ec (CInt z).
Proof.
  intros ec z t name n e blk n' G R Fr. cbn [ConstSpec.good] in G. cbn [Consts.render] in R.
  pose proof (under_go t) as U. pose proof (enum_true t) as Et.
  destruct (true_type t) eqn:T; try contradiction;
    (apply some_pair in R as [R <-]; injection R as <- <-; split; [lia|]); eexists; (split; [reflexivity|]).
  - split; intros _; [|split; [|discriminate]].
    + exists GtBool, (ABool (0 <? z)), (ABool (0 <? z)). split; [reflexivity|]. rewrite <- Et. split; [reflexivity|].
      split; [|split; reflexivity]. apply denotes_true. rewrite T. destruct G as [-> | ->].
      * exact (d_bool structs true false). * exact (d_bool structs true true).
    + exists (ABool (0 <? z)). split; [cbn; rewrite U; reflexivity|]. apply denotes_true. rewrite T. destruct G as [-> | ->].
      * exact (d_bool structs false false). * exact (d_bool structs false true).
  - destruct G as [G1 G2]. split; intros Hec; [|split; [|discriminate]].
    + exists GtInt, (AInt z), (AByte (z mod 256)).
      split; [cbn; rewrite (fits_s 64 z); [reflexivity|apply (in_s_le 8); [lia|exact G1]]|].
      rewrite <- Et. split; [reflexivity|].
      split; [apply denotes_true; rewrite T; constructor; exact G1|]. split; [|reflexivity].
      unfold ConstSpec.kept. rewrite T. intros [].
    + exists (AByte z). specialize (G2 Hec). unfold in_s in G1. split.
      * cbn. rewrite U. cbn. unfold guard. assert ((0 <=? z) && (z <? 256) = true) as -> by lia. reflexivity.
      * apply denotes_true. rewrite T. rewrite <- (Z.mod_small z 256) at 2 by lia. constructor. exact G1.
  - split; intros Hec; [|split; [|discriminate]].
    + exists GtInt, (AInt z), (AInt16 (wraps 16 z)).
      split; [cbn; rewrite (fits_s 64 z); [reflexivity|apply (in_s_le 16); [lia|exact G]]|].
      rewrite <- Et. split; [reflexivity|]. rewrite wraps_id by (try lia; exact G).
      split; [apply denotes_true; rewrite T; constructor; exact G|]. split; [|reflexivity].
      unfold ConstSpec.kept. rewrite T. intros [].
    + exists (AInt16 z). split; [cbn; rewrite U; cbn; rewrite (fits_s 16 z G); reflexivity|].
      apply denotes_true. rewrite T. constructor. exact G.
  - split; intros Hec; [|split; [|discriminate]].
    + exists GtInt, (AInt z), (AInt32 (wraps 32 z)).
      split; [cbn; rewrite (fits_s 64 z); [reflexivity|apply (in_s_le 32); [lia|exact G]]|].
      rewrite <- Et. split; [reflexivity|]. rewrite wraps_id by (try lia; exact G).
      split; [apply denotes_true; rewrite T; constructor; exact G|]. split; [|reflexivity].
      unfold ConstSpec.kept. rewrite T. intros [].
    + exists (AInt32 z). split; [cbn; rewrite U; cbn; rewrite (fits_s 32 z G); reflexivity|].
      apply denotes_true. rewrite T. constructor. exact G.
  - split; intros Hec; [|split; [|discriminate]].
    + exists GtInt, (AInt z), (AInt64 (wraps 64 z)).
      split; [cbn; rewrite (fits_s 64 z G); reflexivity|].
      rewrite <- Et. split; [reflexivity|]. rewrite wraps_id by (try lia; exact G).
      split; [apply denotes_true; rewrite T; constructor; exact G|]. split; [|reflexivity].
      unfold ConstSpec.kept. rewrite T. intros [].
    + exists (AInt64 z). split; [cbn; rewrite U; cbn; rewrite (fits_s 64 z G); reflexivity|].
      apply denotes_true. rewrite T. constructor. exact G.
  - split; intros Hec; [|split; [|discriminate]].
    + exists GtInt, (AInt z), (AF64 (f64_of_Z z)).
      split; [cbn; rewrite (fits_s 64 z G); reflexivity|].
      rewrite <- Et. split; [reflexivity|].
      split; [apply denotes_true; rewrite T; constructor|]. split; [|reflexivity].
      unfold ConstSpec.kept. rewrite T. intros [].
    + exists (AF64 (f64_of_Z z)). split; [cbn; rewrite U; reflexivity|].
      apply denotes_true. rewrite T. constructor.
  - split; intros Hec; [|split; [|discriminate]].
    + exists GtInt, (AInt z), (AInt32 (wraps 32 z)).
      split; [cbn; rewrite (fits_s 64 z); [reflexivity|apply (in_s_le 32); [lia|exact G]]|].
      rewrite <- Et. split; [reflexivity|]. rewrite wraps_id by (try lia; exact G).
      split; [apply denotes_true; rewrite T; constructor; exact G|]. split; [|reflexivity].
      unfold ConstSpec.kept. rewrite T. intros [].
    + eexists. split; [cbn; rewrite U; cbn; rewrite (fits_s 64 z); [reflexivity|apply (in_s_le 32); [lia|exact G]]|].
      apply denotes_true. rewrite T. constructor. exact G.
Qed.

Lemma rendered_double : forall ec b, rendered ec (CDbl b).
Proof.
  intros ec b t name n e blk n' G R Fr. cbn [ConstSpec.good] in G. cbn [Consts.render] in R.
  pose proof (under_go t) as U. pose proof (enum_true t) as Et.
  destruct (true_type t) eqn:T; try contradiction.
  apply some_pair in R as [R <-]. injection R as <- <-. split; [lia|].
  destruct (cx_double X b) as [z|[m k]] eqn:Cx.
  - destruct G as [G <-]. eexists; split; [reflexivity|]. split; intros _; [|split; [|discriminate]].
    + exists GtInt, (AInt z), (AF64 (f64_of_Z z)).
      split; [cbn; rewrite (fits_s 64 z G); reflexivity|].
      rewrite <- Et. split; [reflexivity|].
      split; [apply denotes_true; rewrite T; constructor|]. split; [|reflexivity].
      unfold ConstSpec.kept. rewrite T, Cx. intros [].
    + exists (AF64 (f64_of_Z z)). split; [cbn; rewrite U; reflexivity|].
      apply denotes_true. rewrite T. constructor.
  - subst b. eexists; split; [reflexivity|]. split; intros _; [|split; [|discriminate]].
    + exists GtF64, (AF64 (round10 m k)), (AF64 (round10 m k)). split; [reflexivity|].
      rewrite <- Et. split; [reflexivity|].
      split; [apply denotes_true; rewrite T; constructor|]. split; reflexivity.
    + exists (AF64 (round10 m k)). split; [cbn; rewrite U; reflexivity|].
      apply denotes_true. rewrite T. constructor.
Qed.

Lemma rendered_string : forall ec s, rendered ec (CStr s).
Proof.
  intros ec s t name n e blk n' G R Fr. cbn [ConstSpec.good] in G. cbn [Consts.render] in R.
  pose proof (under_go t) as U. pose proof (enum_true t) as Et.
  destruct (true_type t) eqn:T; try contradiction;
    (apply some_pair in R as [R <-]; injection R as <- <-; split; [lia|]);
    eexists; (split; [cbn; rewrite (XE s G); reflexivity|]).
  - split; intros _; [|split; [|discriminate]].
    + exists GtString, (AStr s), (AStr s). split; [reflexivity|]. rewrite <- Et. split; [reflexivity|].
      split; [apply denotes_true; rewrite T; constructor|]. split; reflexivity.
    + exists (AStr s). split; [cbn; rewrite U; reflexivity|]. apply denotes_true. rewrite T. constructor.
  - split; intros _; [|split].
    + exists GtBytes, (ABytes s), (ABytes s). split; [reflexivity|]. rewrite <- Et. split; [reflexivity|].
      split; [apply denotes_true; rewrite T; constructor|]. split; reflexivity.
    + exists (ABytes s). split; [|apply denotes_true; rewrite T; constructor].
      unfold convert, guard. rewrite (assignable_named GtBytes (go_type t) I U). reflexivity.
    + intros g w Q. injection Q as <- <-. reflexivity.
Qed.

Theorem rendered_all : forall c ec, rendered ec c.
Proof.
  induction c as [z|b|s|l IH|l IH] using cval_ind'; intro ec.
  - apply rendered_int. - apply rendered_double. - apply rendered_string.
  - intros t name n e blk n' G R Fr. cbn [ConstSpec.good] in G. cbn [Consts.render] in R.
    pose proof (under_go t) as U. pose proof (enum_true t) as Et.
    assert (IH' : Forall (rendered true) l) by (eapply Forall_impl; [|exact IH]; intros c H; apply H).
    destruct (true_type t) as [| | | | | | | | | et|et| | |] eqn:T; try contradiction.
    + fold (rlist SPush et name l n) in R.
      destruct (rlist SPush et name l n) as [[ss n1]|] eqn:Rl; [|discriminate].
      apply some_pair in R as [R <-]. injection R as <- <-.
      destruct (list_loop et name l n ss n1 IH' G Rl Fr) as (L & vs & D & H). split; [exact L|].
      exists GtTList, (AList 0 (enum_of et) []), (AList 0 (enum_of et) vs).
      split; [reflexivity|]. split; [apply denotes_true; rewrite T; constructor; exact D|].
      rewrite <- Et. split; [reflexivity|]. split; [reflexivity|]. split; [reflexivity|]. split; [exact U|].
      split; [exact (assignable_named GtTList (go_type t) I U)|].
      intros E g' F Ug.
      destruct (H [] E g' [] (older_nil n) eq_refl F Ug) as (sc' & Ex). exact (block_run _ _ _ _ Ex).
    + fold (rlist SAddTo et name l n) in R.
      destruct (rlist SAddTo et name l n) as [[ss n1]|] eqn:Rl; [|discriminate].
      apply some_pair in R as [R <-]. injection R as <- <-.
      destruct G as [G (vs & Dv & Nv & M)].
      destruct (set_loop et name l n ss n1 IH' G Rl Fr) as (L & H). split; [exact L|].
      set (size := Z.of_nat (length l)) in *.
      destruct (ts_history x f0 (enum_of et) size (map SAdd vs)) as (p & Rn & _ & E1 & E2 & _); [|exact M|].
      { intros o Ho. apply in_map_iff in Ho as (v & <- & Hv). rewrite Forall_forall in Nv. exact (Nv v Hv). }
      destruct (set_contents (enum_of et) size vs p Nv M Rn) as (S1 & S2 & S3).
      exists GtTSet, (ASet 0 (enum_of et) size []), (ASet 0 (enum_of et) size (ts_l p)).
      split; [reflexivity|]. split; [apply denotes_true; rewrite T; apply (d_set structs ec et l vs); assumption|].
      rewrite <- Et. split; [reflexivity|]. split; [reflexivity|]. split; [reflexivity|]. split; [exact U|].
      split; [exact (assignable_named GtTSet (go_type t) I U)|].
      intros E g' F Ug.
      destruct (H vs [] E g' (NewTSet (enum_of et) size) p Dv Nv Rn) as (sc' & Ex); auto.
      { constructor; constructor. }
      { apply older_nil. }
      rewrite E1, E2 in Ex. exact (block_run _ _ _ _ Ex).
  - intros t name n e blk n' G R Fr. cbn [ConstSpec.good] in G. cbn [Consts.render] in R.
    pose proof (under_go t) as U. pose proof (enum_true t) as Et.
    destruct (true_type t) as [| | | | | | | | | | |kt vt|sn ms|] eqn:T; try contradiction.
    + fold (rmap kt vt name l n) in R.
      destruct (rmap kt vt name l n) as [[ss n1]|] eqn:Rl; [|discriminate].
      apply some_pair in R as [R <-]. injection R as <- <-.
      destruct G as [G (ks & Dk & Nk & Sk)].
      assert (IH' : Forall (fun kv => rendered true (fst kv) /\ rendered true (snd kv)) l).
      { eapply Forall_impl; [|exact IH]. intros [k v] [H1 H2]. split; [apply H1|apply H2]. }
      destruct (map_loop kt vt name l n ss n1 IH' G Sk Rl Fr) as (L & H). split; [exact L|].
      set (size := Z.of_nat (length l)) in *.
      set (w0 := AMap 0 (enum_of kt) (enum_of vt) size [] []).
      destruct (H ks Dk Nk) as (ps & Dps & Hps & H').
      destruct (tm_history x f0 (enum_of kt) (enum_of vt) size ps Sk (not_empty vt) Hps) as (p & Rn & _).
      destruct (map_contents (enum_of kt) (enum_of vt) size ps p Sk (not_empty vt) Hps Rn) as (E1 & E2 & M1 & M2 & M3).
      exists GtTMap, w0, (AMap 0 (tm_kt p) (tm_vt p) (tm_size p) (tm_l p) (tm_b p)).
      split; [reflexivity|]. rewrite E1, E2.
      split; [apply denotes_true; rewrite T; apply (d_map structs ec kt vt l ps); assumption|].
      rewrite <- Et. split; [reflexivity|]. split; [reflexivity|]. split; [reflexivity|]. split; [exact U|].
      split; [exact (assignable_named GtTMap (go_type t) I U)|].
      intros E g' F Ug.
      destruct (H' [] E g' [] (NewTMap (enum_of kt) (enum_of vt) size) size) as (sc' & p' & Ex & Rn'); auto.
      { intros k v []. }
      { apply older_nil. }
      cbn [app] in Rn'. assert (p' = p) as -> by congruence.
      rewrite E1, E2 in Ex. exact (block_run _ _ _ _ Ex).
    + fold (rstruct ms name l n) in R.
      destruct (rstruct ms name l n) as [[ss n1]|] eqn:Rl; [|discriminate].
      apply some_pair in R as [R <-]. injection R as <- <-.
      destruct G as [(Di & Dn & dms & fc & attrs0 & Dc & St & Ids) [Dk G]].
      assert (IH' : Forall (fun kv => rendered false (snd kv)) l).
      { eapply Forall_impl; [|exact IH]. intros [k v] [H1 H2]. apply H2. }
      destruct (struct_loop sn ms dms _ name fc l n ss n1 Di Dn Dc St IH' Dk G Rl Fr) as (L & H). split; [exact L|].
      destruct (H attrs0 Ids) as (attrs & A0 & A1 & A2 & H').
      exists (GtPtr (publicize sn)), (AStruct 0 sn fc attrs0), (AStruct 0 sn fc attrs).
      split; [cbn; rewrite St; reflexivity|].
      split; [apply denotes_true; rewrite T; apply (d_struct structs ec sn ms l dms fc attrs0 attrs); assumption|].
      rewrite <- Et. split; [reflexivity|]. split; [reflexivity|]. split; [reflexivity|]. split; [exact U|].
      split; [exact (assignable_named (GtPtr (publicize sn)) (go_type t) I U)|].
      intros E g' F Ug.
      destruct (H' [] E g' (older_nil n) eq_refl F Ug) as (sc' & Ex). exact (block_run _ _ _ _ Ex).
Qed.

(** Every constant handled is rendered. *)
Lemma render_total : forall c ec t name n, good ec c t -> exists r, render c t name n = Some r.
Proof.
  induction c as [z|b|s|l IH|l IH] using cval_ind'; intros ec t name n G;
    cbn [ConstSpec.good] in G; cbn [Consts.render].
  - destruct (true_type t); try contradiction; eauto.
  - destruct (true_type t); try contradiction; eauto.
  - destruct (true_type t); try contradiction; eauto.
  - assert (Tot : forall op et, all (fun c' => good true c' et) l -> forall n, exists r, rlist op et name l n = Some r).
    { intros op et. clear G. induction IH as [|c l IHc _ IHl]; intros G n0; [cbn; eauto|].
      apply all_cons in G as [G1 G2]. rewrite rlist_cons.
      destruct (IHc true et (tmp_v X n0) (S n0) G1) as [[[e b] n1] ->].
      destruct (IHl G2 n1) as [[ss n2] ->]. eauto. }
    destruct (true_type t) as [| | | | | | | | | et|et| | |]; try contradiction.
    + destruct (Tot SPush et G n) as [[ss n1] R]. unfold rlist in R. rewrite R. eauto.
    + destruct G as [G _]. destruct (Tot SAddTo et G n) as [[ss n1] R]. unfold rlist in R. rewrite R. eauto.
  - destruct (true_type t) as [| | | | | | | | | | |kt vt|sn ms|]; try contradiction.
    + destruct G as [G _].
      assert (Tot : forall n, exists r, rmap kt vt name l n = Some r).
      { induction IH as [|[ck cv] l [IHk IHv] _ IHl]; intro n0; [cbn; eauto|].
        apply all_cons in G as [[G1 [G2 _]] G3]. rewrite rmap_cons. cbn [fst snd] in *.
        destruct (IHk true kt (tmp_k X n0) (S (S n0)) G1) as [[[e b] n1] ->].
        destruct (IHv true vt (tmp_v X (S n0)) n1 G2) as [[[e' b'] n2] ->].
        destruct (IHl G3 n2) as [[ss n3] ->]. eauto. }
      destruct (Tot n) as [[ss n1] R]. unfold rmap in R. rewrite R. eauto.
    + destruct G as [(Di & Dn & _) [_ G]].
      assert (Tot : forall n, exists r, rstruct ms name l n = Some r).
      { induction IH as [|[kf c] l [_ IHc] _ IHl]; intro n0; [cbn; eauto|].
        apply all_cons in G as [(f & id & ft & Kf & Im & _ & Gc) G2]. cbn [fst snd] in *. subst kf.
        rewrite rstruct_cons, (field_type_in ms id f ft Dn Im).
        destruct (direct ft).
        - destruct (IHc false ft name n0 Gc) as [[[e b] n1] ->]. destruct (IHl G2 n1) as [[ss n2] ->]. eauto.
        - destruct (IHc false ft (tmp_v X (S n0)) (S (S n0)) Gc) as [[[e b] n1] ->].
          destruct (IHl G2 n1) as [[ss n2] ->]. eauto. }
      destruct (Tot n) as [[ss n1] R]. unfold rstruct in R. rewrite R. eauto.
Qed.
End Proofs.
