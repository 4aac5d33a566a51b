(** Sets of elements and maps with keys of every ordered type: scalars, lists and sets of any
    depth.  Specification and proofs for C37 and C39. *)
From Coq Require Import ZArith List Bool Lia Sorted.
From Coq Require Import ZifyBool ZifyNat.
From Verif Require Import Base Arith F64 Strconv TField GoVal Compare CompareProofs TList TSet TMap ListOrder
  PropContainers PropOrder.
Import ListNotations.
Open Scope Z_scope.

(** ** Specification *)

(** The elements (up to [veq]) of a set after the operations [r], the latest first: an added
    element is stored only if the set is empty or holds an element that is not above it. *)
Fixpoint stored (D : any -> Prop) (r : list sop) (v : any) : Prop :=
  match r with
  | [] => False
  | SAdd a :: r' => stored D r' v \/
      (veq a v /\ ((forall w, D w -> ~ stored D r' w) \/ exists w, D w /\ stored D r' w /\ ~ vlt a w))
  | SRemove b :: r' => stored D r' v /\ ~ veq b v
  end.

(** [v] is the last value set for a key equal to [k]. *)
Definition last_set_eq (h : list (any * any)) (k v : any) : Prop :=
  exists h1 k' h2, h = h1 ++ (k', v) :: h2 /\ veq k' k /\ forall k2 v2, In (k2, v2) h2 -> ~ veq k2 k.

(** ** Proofs *)
Definition desc (a b : any) : Prop := vlt b a.
Definition ein (v : any) (l : list any) : Prop := exists e, In e l /\ veq e v.

Section Dom.
Variable hp : Z -> any.
Variable et : Z.
Notation D := (lval hp et).

Lemma L_irr i : D i -> ~ vlt i i.
Proof. intros H. pose proof (lval_laws hp et i H i i H H) as X. tauto. Qed.
Lemma L_tr i j k : D i -> D j -> D k -> vlt i j -> vlt j k -> vlt i k.
Proof. intros A B C. pose proof (lval_laws hp et i A j k B C) as X. tauto. Qed.
Lemma L_ne i j : D i -> D j -> vlt i j -> ~ veq i j.
Proof. intros A B. pose proof (lval_laws hp et i A j j B B) as X. tauto. Qed.
Lemma E_refl i : D i -> veq i i.
Proof. intros A. pose proof (lval_laws hp et i A i i A A) as X. tauto. Qed.
Lemma E_sym i j : D i -> D j -> veq i j -> veq j i.
Proof. intros A B. pose proof (lval_laws hp et i A j j B B) as X. tauto. Qed.
Lemma E_tr i j k : D i -> D j -> D k -> veq i j -> veq j k -> veq i k.
Proof. intros A B C. pose proof (lval_laws hp et i A j k B C) as X. tauto. Qed.
Lemma EL i j k : D i -> D j -> D k -> veq i j -> vlt j k -> vlt i k.
Proof. intros A B C. pose proof (lval_laws hp et i A j k B C) as X. tauto. Qed.
Lemma LE i j k : D i -> D j -> D k -> vlt i j -> veq j k -> vlt i k.
Proof. intros A B C. pose proof (lval_laws hp et i A j k B C) as X. tauto. Qed.

Lemma lval_not_nil v : D v -> is_nil v = false.
Proof. intros H. destruct H; try reflexivity. eapply native_not_nil; eauto. Qed.
Lemma lval_coerce x v : D v -> CoerceData x et v = Ok (v, true).
Proof. intros H. destruct H; [apply coerce_native; auto|reflexivity|reflexivity]. Qed.

Lemma ein_veq v w l : D v -> D w -> Forall D l -> veq v w -> ein v l -> ein w l.
Proof.
  intros Hv Hw Hl E (e & He & V). rewrite Forall_forall in Hl. exists e. split; [auto|]. apply (E_tr e v w); auto.
Qed.

Lemma add_loop_lval : forall x f a l, D a -> (depth a < f)%nat -> Forall D l -> StronglySorted desc l ->
  exists l', add_loop x f et a l = Ok l' /\ Forall D l' /\ StronglySorted desc l' /\
    (forall e, In e l' -> In e l \/ e = a) /\ (length l <= length l')%nat /\
    (forall v, D v -> (ein v l' <-> ein v l \/ (veq a v /\ exists e, In e l /\ ~ vlt a e))).
Proof.
  intros x f a l Ha Hf. induction l as [|e l IH]; intros Hl Hs.
  - exists []. split; [reflexivity|]. split; [constructor|]. split; [constructor|]. split; [auto|]. split; [cbn; lia|].
    intros v Hv. split; [auto|]. intros [H|(_ & e & [] & _)]; auto.
  - inversion Hl as [|? ? De Dl]; subst. inversion Hs as [|? ? Sl Fl]; subst.
    cbn [add_loop]. destruct (Compare_lval x hp f et a e Ha De Hf) as (c & -> & C). cbn [obind andb].
    rewrite Forall_forall in Dl, Fl.
    destruct C as [[-> C]|[[-> C]|[-> C]]]; cbn [Z.leb Z.ltb Z.compare].
    + destruct IH as (l' & -> & F' & S' & Sub & Ln & K); [apply Forall_forall; auto|auto|]. cbn [obind].
      exists (e :: l'). split; [reflexivity|]. split; [constructor; auto|]. split; [|split; [|split]].
      * constructor; [auto|]. apply Forall_forall. intros e' He'. destruct (Sub e' He') as [H| ->]; [apply Fl, H|exact C].
      * intros e' [<-|H]; [left; left; auto|]. destruct (Sub e' H); [left; right; auto|auto].
      * cbn [length]. lia.
      * intros v Hv. split.
        -- intros (e' & [<-|H] & V); [left; exists e; split; [left|]; auto|].
           destruct (proj1 (K v Hv)) as [(e2 & H2 & V2)|(Q & e2 & H2 & V2)]; [exists e'; auto| |].
           ++ left. exists e2. split; [right|]; auto.
           ++ right. split; [auto|]. exists e2. split; [right|]; auto.
        -- intros [(e' & [<-|H] & V)|(Q & e2 & [<-|H2] & V2)].
           ++ exists e. split; [left|]; auto.
           ++ destruct (proj2 (K v Hv)) as (e2 & H2 & V2); [left; exists e'; auto|]. exists e2. split; [right|]; auto.
           ++ destruct (V2 C).
           ++ destruct (proj2 (K v Hv)) as (e3 & H3 & V3); [right; eauto|]. exists e3. split; [right|]; auto.
    + exists (e :: l). split; [reflexivity|]. split; [constructor; auto; apply Forall_forall; auto|]. split; [auto|].
      split; [auto|]. split; [lia|]. intros v Hv. split; [auto|]. intros [H|(Q & _)]; [auto|].
      exists e. split; [left; auto|]. apply (E_tr e a v); auto. apply E_sym; auto.
    + exists (a :: e :: l). split; [reflexivity|]. split; [constructor; auto; constructor; auto; apply Forall_forall; auto|].
      split; [|split; [|split]].
      * constructor; [auto|]. constructor; [exact C|]. apply Forall_forall. intros e' He'. unfold desc.
        apply (L_tr e' e a); auto. apply Fl, He'.
      * intros e' [<-|H]; auto.
      * cbn [length]. lia.
      * intros v Hv. split.
        -- intros (e' & [<-|H] & V); [|left; exists e'; auto]. right. split; [auto|]. exists e. split; [left; auto|].
           intros C2. exact (L_irr a Ha (L_tr a e a Ha De Ha C2 C)).
        -- intros [(e' & H & V)|(Q & _)]; [exists e'; split; [right|]; auto|]. exists a. split; [left|]; auto.
Qed.

Record sinv (p : tset) : Prop := {
  si_et : ts_et p = et;
  si_dom : Forall D (ts_l p);
  si_sorted : StronglySorted desc (ts_l p)
}.

Lemma add_lval : forall x f p a, sinv p -> D a -> (depth a < f)%nat ->
  exists p', ts_Add x f p a = Ok p' /\ sinv p' /\ ts_size p' = ts_size p /\
    forall v, D v -> (ein v (ts_l p') <->
      ein v (ts_l p) \/ (veq a v /\ (ts_l p = [] \/ exists e, In e (ts_l p) /\ ~ vlt a e))).
Proof.
  intros x f p a [I1 I2 I3] Ha Hf. unfold ts_Add. rewrite I1, lval_coerce by auto. cbn [obind].
  destruct (ts_l p) as [|e l] eqn:El.
  - eexists. split; [reflexivity|]. split; [constructor; cbn [ts_et ts_l]; auto; repeat constructor; auto|].
    split; [reflexivity|]. cbn [ts_l]. intros v Hv. split.
    + intros (e & [<-|[]] & V). auto.
    + intros [(e & [] & _)|(Q & _)]. exists a. split; [left|]; auto.
  - destruct (add_loop_lval x f a (e :: l) Ha Hf I2 I3) as (l' & -> & F' & S' & _ & Ln & K). cbn [obind].
    eexists. split; [reflexivity|]. split; [constructor; cbn [ts_et ts_l]; auto|]. split; [reflexivity|].
    cbn [ts_l]. intros v Hv. rewrite (K v Hv). split; [intros [H|[Q H]]; auto|].
    intros [H|[Q [H|H]]]; auto. discriminate H.
Qed.

Lemma find_set : forall x f p d, sinv p -> D d -> (depth d < f)%nat ->
  exists k, ts_find x f p d = Ok k /\
    ((k = -1 /\ forall v, In v (ts_l p) -> ~ veq d v) \/
     exists a e b, ts_l p = a ++ e :: b /\ veq d e /\ k = Z.of_nat (length a)).
Proof.
  intros x f p d [I1 I2 I3] Hd Hf. unfold ts_find. rewrite (lval_not_nil d Hd), I1, lval_coerce by auto.
  cbn [obind]. rewrite (lval_not_nil d Hd). cbn [negb orb]. rewrite Forall_forall in I2.
  destruct (find_lval (same_elem x f et d) (veq d) (ts_l p) 0) as (k & -> & K).
  { intros v Hv. apply (same_elem_lval x hp); auto. }
  exists k. split; [reflexivity|]. destruct K as [K|(a & e & b & -> & Pe & _ & ->)]; [auto|].
  right. exists a, e, b. repeat split; auto.
Qed.

Lemma remove_at_app : forall (a : list any) e b, remove_at (a ++ e :: b) (length a) = a ++ b.
Proof. induction a as [|c a IH]; intros; cbn; [reflexivity|]. rewrite IH. reflexivity. Qed.

Lemma sorted_app_mid : forall a e b, StronglySorted desc (a ++ e :: b) ->
  StronglySorted desc (a ++ b) /\ (forall i, In i a -> vlt e i) /\ (forall i, In i b -> vlt i e).
Proof.
  induction a as [|c a IH]; intros e b H; cbn [app] in *; inversion H as [|? ? S F]; subst.
  - rewrite Forall_forall in F. split; [auto|]. split; [intros i []|exact F].
  - destruct (IH e b S) as (S' & A & B). rewrite Forall_forall in F. split; [|split; [|exact B]].
    + constructor; [auto|]. apply Forall_forall. intros i Hi. apply F. apply in_app_or in Hi as [Hi|Hi]; apply in_or_app; [left|right; right]; auto.
    + intros i [<-|Hi]; [|auto]. apply F. apply in_or_app; right; left; auto.
Qed.

Lemma remove_lval : forall x f p d, sinv p -> D d -> (depth d < f)%nat ->
  exists p', ts_Remove x f p d = Ok p' /\ sinv p' /\ ts_size p' = ts_size p /\
    forall v, D v -> (ein v (ts_l p') <-> ein v (ts_l p) /\ ~ veq d v).
Proof.
  intros x f p d I Hd Hf. destruct (find_set x f p d I Hd Hf) as (k & E & K). destruct I as [I1 I2 I3].
  unfold ts_Remove. rewrite E. cbn [obind]. pose proof I2 as I2'. rewrite Forall_forall in I2.
  destruct K as [[-> K]|(a & e & b & El & V & ->)].
  - change (-1 =? -1) with true. cbv iota. exists p. split; [reflexivity|]. split; [constructor; auto|]. split; [reflexivity|].
    intros v Hv. split; [|tauto]. intros (i & Hi & Vi). split; [exists i; auto|]. intros Q.
    apply (K i Hi). apply (E_tr d v i); auto. apply E_sym; auto.
  - replace (Z.of_nat (length a) =? -1) with false by lia. rewrite Nat2Z.id, El, remove_at_app. rewrite El in *.
    destruct (sorted_app_mid a e b I3) as (S' & A & B).
    assert (De : D e) by (apply I2, in_or_app; right; left; auto).
    assert (Dab : forall i, In i (a ++ b) -> D i).
    { intros i Hi. apply I2. apply in_app_or in Hi as [Hi|Hi]; apply in_or_app; [left|right; right]; auto. }
    eexists. split; [reflexivity|]. split; [constructor; cbn [ts_et ts_l]; auto; apply Forall_forall; auto|].
    split; [reflexivity|]. cbn [ts_l]. intros v Hv. split.
    + intros (i & Hi & Vi). split.
      * exists i. split; [|auto]. apply in_app_or in Hi as [Hi|Hi]; apply in_or_app; [left|right; right]; auto.
      * intros Q. assert (Vei : veq e i).
        { apply (E_tr e d i); auto; [apply E_sym; auto|]. apply (E_tr d v i); auto. apply E_sym; auto. }
        apply in_app_or in Hi as [Hi|Hi].
        -- apply (L_ne e i); auto. apply Dab, in_or_app; auto.
        -- apply (L_ne i e); auto; [apply Dab, in_or_app; auto|]. apply E_sym; auto. apply Dab, in_or_app; auto.
    + intros ((i & Hi & Vi) & Q). exists i. split; [|auto].
      apply in_app_or in Hi as [Hi|[<-|Hi]]; [apply in_or_app; auto| |apply in_or_app; auto].
      destruct Q. apply (E_tr d e v); auto.
Qed.

Lemma ts_run_app : forall x f h1 h2 p,
  ts_run x f p (h1 ++ h2) = (q <- ts_run x f p h1 ;; ts_run x f q h2).
Proof.
  intros x f. induction h1 as [|o h1 IH]; intros h2 p; cbn [app ts_run obind]; [reflexivity|].
  destruct o; [destruct (ts_Add x f p v)|destruct (ts_Remove x f p v)]; cbn [obind]; auto.
Qed.

Theorem set_history : forall x f size h,
  (forall o, In o h -> D (op_val o) /\ (depth (op_val o) < f)%nat) ->
  exists p, ts_run x f (NewTSet et size) h = Ok p /\ sinv p /\ ts_size p = size /\
    forall v, D v -> (ein v (ts_l p) <-> stored D (rev h) v).
Proof.
  intros x f size h. induction h as [|o h IH] using rev_ind; intros Hh.
  - exists (NewTSet et size). split; [reflexivity|]. split; [constructor; cbn; constructor|]. split; [reflexivity|].
    intros v Hv. cbn. split; [intros (e & [] & _)|tauto].
  - destruct IH as (p & E & I & Sz & K). { intros o' Ho. apply Hh, in_or_app; auto. }
    destruct (Hh o) as [Do Df]; [apply in_or_app; right; left; auto|].
    rewrite ts_run_app, E, rev_unit. cbn [obind ts_run].
    destruct o as [a|b]; cbn [op_val stored] in *.
    + destruct (add_lval x f p a I Do Df) as (p' & -> & I' & Sz' & K'). cbn [obind].
      exists p'. split; [reflexivity|]. split; [auto|]. split; [congruence|]. intros v Hv. rewrite (K' v Hv), (K v Hv).
      pose proof (si_dom _ I) as Fd. rewrite Forall_forall in Fd.
      assert (Q1 : ts_l p = [] <-> forall w, D w -> ~ stored D (rev h) w).
      { split; [intros N w Dw Hw; apply K in Hw; [|auto]; rewrite N in Hw; destruct Hw as (? & [] & _)|].
        intros N. destruct (ts_l p) as [|e l] eqn:El; [reflexivity|]. exfalso.
        assert (De : D e) by (apply Fd; left; auto). apply (N e De), K; auto. exists e. split; [left; auto|].
        apply E_refl; auto. }
      assert (Q2 : (exists e, In e (ts_l p) /\ ~ vlt a e) <-> exists w, D w /\ stored D (rev h) w /\ ~ vlt a w).
      { split.
        - intros (e & He & N). exists e. split; [auto|]. split; [|auto]. apply K; auto. exists e. split; auto. apply E_refl; auto.
        - intros (w & Dw & Hw & N). apply K in Hw as (e & He & V); [|auto]. exists e. split; [auto|]. intros C.
          apply N, (LE a e w); auto. }
      rewrite Q1, Q2. tauto.
    + destruct (remove_lval x f p b I Do Df) as (p' & -> & I' & Sz' & K'). cbn [obind].
      exists p'. split; [reflexivity|]. split; [auto|]. split; [congruence|]. intros v Hv. rewrite (K' v Hv), (K v Hv). tauto.
Qed.

Lemma contains_set : forall x f p d, sinv p -> D d -> (depth d < f)%nat ->
  exists b, ts_Contains x f p d = Ok b /\ (b = true <-> ein d (ts_l p)).
Proof.
  intros x f p d I Hd Hf. destruct (find_set x f p d I Hd Hf) as (k & E & K). unfold ts_Contains. rewrite E. cbn [obind].
  pose proof (si_dom _ I) as Fd. rewrite Forall_forall in Fd.
  eexists. split; [reflexivity|]. destruct K as [[-> K]|(a & e & b & El & V & ->)].
  - split; [discriminate|]. intros (e & He & V). destruct (K e He). apply E_sym; auto.
  - split; [|lia]. intros _. exists e. rewrite El in *.
    assert (In e (a ++ e :: b)) by (apply in_or_app; right; left; auto). split; [auto|]. apply E_sym; auto.
Qed.

(** ** Maps *)
Fixpoint klookup (es : list (any * any)) (k : any) (v : any) : Prop :=
  match es with
  | [] => False
  | (k', v') :: es' => (veq k' k /\ v = v') \/ (~ veq k' k /\ klookup es' k v)
  end.
Definition kdesc (a b : any * any) : Prop := vlt (fst b) (fst a).

Lemma klookup_in : forall es k v, klookup es k v -> exists k', In (k', v) es /\ veq k' k.
Proof.
  induction es as [|[k' v'] es IH]; intros k v; cbn [klookup]; [tauto|].
  intros [[V ->]|[_ H]]; [exists k'; split; [left|]; auto|]. destruct (IH k v H) as (k2 & H2 & V2).
  exists k2. split; [right|]; auto.
Qed.
Lemma in_klookup : forall es k v, D k -> Forall (fun e => D (fst e)) es -> StronglySorted kdesc es ->
  In (k, v) es -> klookup es k v.
Proof.
  induction es as [|[k' v'] es IH]; intros k v Hk Hd Hs Hin; [destruct Hin|].
  inversion Hd as [|? ? Dk Dl]; subst. inversion Hs as [|? ? Sl Fl]; subst. cbn [klookup fst] in *. rewrite Forall_forall in Fl.
  destruct Hin as [Q|Hin]; [injection Q as -> ->; left; split; [apply E_refl; auto|reflexivity]|].
  right. split; [|apply IH; auto]. intros V. specialize (Fl _ Hin). unfold kdesc in Fl. cbn [fst] in Fl.
  apply (L_ne k k'); auto. apply E_sym; auto.
Qed.
Lemma klookup_veq : forall es k q v, D k -> D q -> Forall (fun e => D (fst e)) es -> veq k q ->
  (klookup es k v <-> klookup es q v).
Proof.
  induction es as [|[k' v'] es IH]; intros k q v Hk Hq Hd V; cbn [klookup]; [tauto|].
  inversion Hd as [|? ? Dk Dl]; subst. cbn [fst] in Dk. rewrite (IH k q v) by auto.
  assert (veq k' k <-> veq k' q) as ->; [|tauto].
  split; intros W; [apply (E_tr k' k q)|apply (E_tr k' q k)]; auto. apply E_sym; auto.
Qed.

Lemma veq_dec a b : D a -> D b -> veq a b \/ ~ veq a b.
Proof.
  intros Ha Hb. pose proof (lval_laws hp et a Ha b b Hb Hb) as (_ & _ & [H|[H|H]] & _); auto.
  - right. apply L_ne; auto.
  - right. intros V. apply (L_ne b a); auto. apply E_sym; auto.
Qed.

Lemma list_set_lval : forall x f k v es, D k -> (depth k < f)%nat ->
  Forall (fun e => D (fst e)) es -> StronglySorted kdesc es ->
  exists es', list_set x f et k v es = Ok es' /\ Forall (fun e => D (fst e)) es' /\ StronglySorted kdesc es' /\
    (forall e, In e es' -> In e es \/ e = (k, v)) /\
    (forall q w, D q -> (klookup es' q w <-> (veq k q /\ w = v) \/ (~ veq k q /\ klookup es q w))).
Proof.
  intros x f k v es Hk Hf. induction es as [|[k' v'] es IH]; intros Hd Hs.
  - exists [(k, v)]. split; [reflexivity|]. split; [constructor; auto|]. split; [constructor; constructor|]. split.
    + intros e [<-|[]]; auto.
    + intros q w Hq. cbn. tauto.
  - inversion Hd as [|? ? Dk Dl]; subst. inversion Hs as [|? ? Sl Fl]; subst. cbn [fst] in *.
    cbn [list_set]. destruct (Compare_lval x hp f et k k' Hk Dk Hf) as (c & -> & C). cbn [obind andb].
    rewrite Forall_forall in Fl, Dl.
    destruct C as [[-> C]|[[-> C]|[-> C]]]; cbn [Z.leb Z.eqb Z.compare].
    + destruct IH as (es' & -> & D' & S' & Sub & K); [apply Forall_forall; auto|auto|]. cbn [obind].
      exists ((k', v') :: es'). split; [reflexivity|]. split; [constructor; auto|]. split; [|split].
      * constructor; [auto|]. apply Forall_forall. intros e He. destruct (Sub e He) as [H| ->]; [apply Fl, H|exact C].
      * intros e [<-|H]; [left; left; auto|]. destruct (Sub e H); [left; right; auto|auto].
      * intros q w Hq. cbn [klookup]. rewrite (K q w Hq).
        assert (N : veq k' q -> ~ veq k q).
        { intros V V2. apply (L_ne k k'); auto. apply (E_tr k q k'); auto. apply E_sym; auto. }
        tauto.
    + exists ((k, v) :: es). split; [reflexivity|]. split; [constructor; auto; apply Forall_forall; auto|]. split; [|split].
      * constructor; [auto|]. apply Forall_forall. intros e He. unfold kdesc. cbn [fst].
        specialize (Fl e He). unfold kdesc in Fl. cbn [fst] in Fl. apply (LE (fst e) k' k); auto. apply E_sym; auto.
      * intros e [<-|H]; auto. left; right; auto.
      * intros q w Hq. cbn [klookup]. assert (veq k' q <-> veq k q) as ->; [|tauto].
        split; intros W; [apply (E_tr k k' q)|apply (E_tr k' k q)]; auto. apply E_sym; auto.
    + exists ((k, v) :: (k', v') :: es). split; [reflexivity|]. split; [constructor; auto; constructor; auto; apply Forall_forall; auto|]. split; [|split].
      * constructor; [auto|]. constructor; [exact C|]. apply Forall_forall. intros e He. unfold kdesc. cbn [fst].
        specialize (Fl e He). unfold kdesc in Fl. cbn [fst] in Fl. apply (L_tr (fst e) k' k); auto.
      * intros e [<-|H]; auto.
      * intros q w Hq. cbn [klookup]. tauto.
Qed.

Hypothesis kt_container : et = LIST \/ et = SET.

Record kinv (p : tmap) : Prop := {
  ki_kt : tm_kt p = et;
  ki_dom : Forall (fun e => D (fst e)) (tm_l p);
  ki_sorted : StronglySorted kdesc (tm_l p)
}.

Lemma set_lval : forall x f p k v, kinv p -> D k -> (depth k < f)%nat -> IsEmptyType (tm_vt p) = false ->
  CoerceData x (tm_vt p) v = Ok (v, true) ->
  exists p', tm_Set x f p k v = Ok p' /\ kinv p' /\ tm_vt p' = tm_vt p /\ tm_size p' = tm_size p /\
    (forall e, In e (tm_l p') -> In e (tm_l p) \/ e = (k, v)) /\
    (forall q w, D q -> (klookup (tm_l p') q w <-> (veq k q /\ w = v) \/ (~ veq k q /\ klookup (tm_l p) q w))).
Proof.
  intros x f p k v [I1 I2 I3] Hk Hf Hv Hc.
  assert (Hvt : (tm_vt p =? STOP) || (tm_vt p =? VOID) = false).
  { unfold IsEmptyType, mem in Hv. cbn [existsb] in Hv. rewrite orb_false_r in Hv. exact Hv. }
  assert (T : (et =? STOP) || (et =? VOID) = false /\ negb (IsBaseType et) || (et =? BINARY) = true).
  { destruct kt_container as [-> | ->]; split; reflexivity. }
  destruct T as [T1 T2]. unfold tm_Set. rewrite I1, T1, lval_coerce by auto. cbn [obind negb].
  rewrite Hvt, Hc. cbn [obind negb]. rewrite T2.
  destruct (list_set_lval x f k v (tm_l p) Hk Hf I2 I3) as (es' & -> & D' & S' & Sb & K). cbn [obind].
  eexists. split; [reflexivity|]. split; [constructor; cbn [tm_kt tm_l]; auto|]. cbn [tm_vt tm_size tm_l]. auto.
Qed.

Lemma last_set_eq_snoc : forall h k' v' k v, last_set_eq (h ++ [(k', v')]) k v <->
  ((veq k' k /\ v = v') \/ (~ veq k' k /\ last_set_eq h k v)).
Proof.
  intros h k' v' k v. split.
  - intros (h1 & a & h2 & E & Ea & R).
    destruct h2 as [|z h2'] using rev_ind.
    + apply app_inj_tail in E as [<- E]. injection E as -> ->. left. auto.
    + clear IHh2'. rewrite app_comm_cons, app_assoc in E. apply app_inj_tail in E as [-> <-]. right.
      split; [apply (R k' v'), in_or_app; right; left; auto|].
      exists h1, a, h2'. split; [reflexivity|]. split; [auto|]. intros k2 v2 H. apply (R k2 v2), in_or_app; auto.
  - intros [[E ->]|[Ne (h1 & a & h2 & -> & Ea & R)]].
    + exists h, k', []. split; [reflexivity|]. split; [auto|intros ? ? []].
    + exists h1, a, (h2 ++ [(k', v')]). rewrite <- app_assoc. split; [reflexivity|]. split; [auto|].
      intros k2 v2 H. apply in_app_or in H as [H|[H|[]]]; [eapply R; eauto|]. injection H as <- <-. exact Ne.
Qed.

Theorem map_history : forall x f vt size h, IsEmptyType vt = false ->
  (forall k v, In (k, v) h -> D k /\ (depth k < f)%nat /\ CoerceData x vt v = Ok (v, true)) ->
  exists p, tm_run x f (NewTMap et vt size) h = Ok p /\ kinv p /\ tm_vt p = vt /\ tm_size p = size /\
    (forall e, In e (tm_l p) -> In e h) /\
    (forall q w, D q -> (klookup (tm_l p) q w <-> last_set_eq h q w)).
Proof.
  intros x f vt size h Hvt. induction h as [|[k v] h IH] using rev_ind; intros Hh.
  - exists (NewTMap et vt size). split; [reflexivity|]. split; [constructor; cbn; auto; constructor|].
    split; [reflexivity|]. split; [reflexivity|]. split; [intros e []|]. intros q w Hq. cbn. split; [tauto|].
    intros (h1 & a & h2 & E & _). destruct h1; discriminate.
  - destruct IH as (p & E & I & K1 & K2 & Sb & K). { intros k' v' H. apply Hh, in_or_app; auto. }
    destruct (Hh k v) as (Dk & Df & Hc); [apply in_or_app; right; left; auto|].
    rewrite tm_run_app, E. cbn [obind tm_run].
    destruct (set_lval x f p k v I Dk Df) as (p' & -> & I' & K1' & K2' & Sb' & K'); try congruence. cbn [obind].
    exists p'. split; [reflexivity|]. split; [auto|]. split; [congruence|]. split; [congruence|]. split.
    { intros e He. destruct (Sb' e He) as [H| ->]; apply in_or_app; [left; auto|right; left; auto]. }
    intros q w Hq. rewrite (K' q w Hq), last_set_eq_snoc, (K q w Hq). reflexivity.
Qed.

Lemma list_get_lval : forall x f k es, D k ->
  Forall (fun e => D (fst e)) es -> (forall e, In e es -> (depth (fst e) < f)%nat) ->
  exists r, list_get x f et k es = Ok r /\ forall w, r = Some w <-> klookup es k w.
Proof.
  intros x f k es Hk. induction es as [|[k' v'] es IH]; intros Hd Hf; cbn [list_get].
  - exists None. split; [reflexivity|]. cbn. intros w. split; [discriminate|tauto].
  - inversion Hd as [|? ? Dk Dl]; subst. cbn [fst] in *.
    assert (E : exists b, list_key_eq x f et k k' = Ok b /\ (b = true <-> veq k' k)).
    { pose proof (Hf _ (or_introl eq_refl)) as Hf'. cbn [fst] in Hf'.
      destruct (Compare_lval x hp f et k' k Dk Hk Hf') as (c & C1 & C2).
      assert (list_key_eq x f et k k' = ' (c, ok) <- Compare x f et k' k ;; Ok (ok && (c =? 0))) as ->.
      { destruct kt_container as [-> | ->].
        - inversion Dk as [? ? N| |]; subst; [destruct (native_LIST _ N)|]. reflexivity.
        - inversion Dk as [? ? N| |]; subst; [destruct (native_SET _ N)|]. reflexivity. }
      rewrite C1. cbn [obind andb]. eexists. split; [reflexivity|].
      destruct C2 as [[-> C]|[[-> C]|[-> C]]]; cbn; split; try discriminate; auto.
      - intros V. destruct (L_ne k' k Dk Hk C V).
      - intros V. destruct (L_ne k k' Hk Dk C). apply E_sym; auto. }
    destruct E as (b & -> & B). cbn [obind]. destruct b.
    + exists (Some v'). split; [reflexivity|]. intros w. cbn [klookup]. split.
      * intros H. injection H as <-. left. split; [apply B; auto|reflexivity].
      * intros [[_ ->]|[N _]]; [reflexivity|]. destruct N. apply B; auto.
    + destruct IH as (r & -> & R); [auto|intros e He; apply Hf; right; auto|]. exists r. split; [reflexivity|].
      intros w. cbn [klookup]. rewrite R. assert (~ veq k' k) by (intros V; apply B in V; discriminate). tauto.
Qed.

Lemma get_lval : forall x f p k, kinv p -> D k -> (forall e, In e (tm_l p) -> (depth (fst e) < f)%nat) ->
  (forall w, klookup (tm_l p) k w -> tm_Get x f p k = Ok (w, true) /\ tm_Contains x f p k = Ok true) /\
  ((forall w, ~ klookup (tm_l p) k w) -> tm_Get x f p k = Ok (ANil, false) /\ tm_Contains x f p k = Ok false).
Proof.
  intros x f p k [I1 I2 I3] Hk Hf. unfold tm_Get, tm_Contains. rewrite I1, lval_not_nil, lval_coerce by auto.
  cbn [obind negb]. rewrite lval_not_nil by auto.
  assert (T : IsEmptyType et = false /\ (et =? BOOL) = false /\ go_map_type et = false /\ mem et [BINARY; STRUCT; MAP; SET; LIST] = true).
  { destruct kt_container as [-> | ->]; repeat split. }
  destruct T as (-> & -> & -> & ->). cbv iota.
  destruct (list_get_lval x f k (tm_l p) Hk I2 Hf) as (r & -> & R). cbn [obind]. split.
  - intros w Hw. apply R in Hw as ->. auto.
  - intros N. destruct r as [w|]; [|auto]. destruct (N w). apply R. reflexivity.
Qed.
End Dom.
