(** How deep values are nested, and that Compare and the container operations need no more calls than that. *)
From Coq Require Import ZArith List Bool Lia Permutation.
From Verif Require Import Base Arith F64 Strconv TField GoVal Compare TList TSet TMap.
Import ListNotations.
Open Scope Z_scope.

(** Levels of containers in a value.  Compare does not look into structs: it gets nil for every member. *)
Fixpoint adepth (v : any) : nat :=
  match v with
  | AList _ _ l | ASet _ _ _ l => S (fold_right (fun e n => Nat.max (adepth e) n) 0%nat l)
  | AMap _ _ _ _ l b =>
    S (Nat.max (fold_right (fun e n => Nat.max (Nat.max (adepth (fst e)) (adepth (snd e))) n) 0%nat l)
               (fold_right (fun e n => Nat.max (Nat.max (adepth (fst e)) (adepth (snd e))) n) 0%nat b))
  | AStruct _ _ _ _ => 1%nat
  | _ => 0%nat
  end.
Definition within (d : nat) (v : any) : Prop := (adepth v <= d)%nat.
Definition within2 (d : nat) (kv : any * any) : Prop := within d (fst kv) /\ within d (snd kv).

Lemma vmax_iff : forall d l, (fold_right (fun e n => Nat.max (adepth e) n) 0%nat l <= d)%nat <-> Forall (within d) l.
Proof.
  intros d. induction l as [|e l IH]; cbn [fold_right]; split; intro H; [constructor|lia| |].
  - constructor; [unfold within; lia|apply IH; lia].
  - inversion H as [|? ? H1 H2]; subst. apply IH in H2. unfold within in H1. lia.
Qed.
Lemma pmax_iff : forall d l,
  (fold_right (fun e n => Nat.max (Nat.max (adepth (fst e)) (adepth (snd e))) n) 0%nat l <= d)%nat <-> Forall (within2 d) l.
Proof.
  intros d. induction l as [|e l IH]; cbn [fold_right]; split; intro H; [constructor|lia| |].
  - constructor; [split; unfold within; lia|apply IH; lia].
  - inversion H as [|? ? H1 H2]; subst. apply IH in H2. destruct H1 as [H1 H3]. unfold within in H1, H3. lia.
Qed.
Lemma within_list : forall d a et l, within (S d) (AList a et l) <-> Forall (within d) l.
Proof. intros. unfold within at 1. cbn [adepth]. rewrite <- Nat.succ_le_mono. apply vmax_iff. Qed.
Lemma within_set : forall d a et n l, within (S d) (ASet a et n l) <-> Forall (within d) l.
Proof. intros. unfold within at 1. cbn [adepth]. rewrite <- Nat.succ_le_mono. apply vmax_iff. Qed.
Lemma within_map : forall d a kt vt n l b,
  within (S d) (AMap a kt vt n l b) <-> Forall (within2 d) l /\ Forall (within2 d) b.
Proof.
  intros. unfold within at 1. cbn [adepth]. rewrite <- Nat.succ_le_mono, Nat.max_lub_iff. rewrite !pmax_iff. reflexivity.
Qed.
Lemma within_nil : forall d, within d ANil.
Proof. intros. unfold within. cbn. lia. Qed.

Section Depth.
Variable x : ext.
Hypothesis order_perm : forall tag l, Permutation l (x_order x tag l).

(** CoerceData makes nothing deeper, but that any value becomes an empty struct. *)
Lemma coerce_some : forall p d, CoerceData x p d <> OutOfFuel.
Proof.
  intros p d. unfold CoerceData, coerce_nil.
  destruct d; repeat match goal with |- context [if ?c then _ else _] => destruct c end; discriminate.
Qed.
Lemma ok_inv : forall A (a b : A), Ok a = Ok b -> a = b.
Proof. congruence. Qed.
Lemma coerce_within : forall p v w ok, CoerceData x p v = Ok (w, ok) -> (adepth w <= Nat.max 1 (adepth v))%nat.
Proof.
  intros p v w ok H. 
  assert (T : forall conv z d w ok, (forall i, adepth (conv i) = 0%nat) -> adepth z = 0%nat -> coerce_text conv z d = (w, ok) -> adepth w = 0%nat).
  { intros conv z d w0 ok0 Hc Hz E. unfold coerce_text in E.
    destruct (match d with AStr s => Some s | _ => as_stringer d end); [destruct (ParseInt _ _) as [i [e|]]|];
      injection E as <- _; auto. }
  assert (B : forall d w ok, coerce_bool d = (w, ok) -> adepth w = 0%nat).
  { intros d w0 ok0 E. unfold coerce_bool in E.
    destruct d; try (injection E as <- _; reflexivity); destruct (as_stringer _); injection E as <- _; reflexivity. }
  assert (Y : forall d w ok, coerce_byte x d = (w, ok) -> adepth w = 0%nat).
  { intros d w0 ok0 E. unfold coerce_byte in E.
    destruct d; cbn [as_integer] in E; try (injection E as <- _; reflexivity); (eapply T; [| |exact E]; reflexivity). }
  assert (D : forall d w ok, coerce_double x d = (w, ok) -> adepth w = 0%nat).
  { intros d w0 ok0 E. unfold coerce_double in E.
    destruct d; cbn [as_integer as_stringer] in E; try (injection E as <- _; reflexivity);
      first [destruct (x_parse_float _ _) as [? [?|]]; injection E as <- _; reflexivity
            |destruct (as_stringer _); [destruct (x_parse_float _ _) as [? [?|]]|]; injection E as <- _; reflexivity]. }
  assert (N : forall bits conv d w ok, (forall i, adepth (conv i) = 0%nat) -> coerce_int x bits conv d = (w, ok) -> adepth w = 0%nat).
  { intros bits conv d w0 ok0 Hc E. unfold coerce_int in E.
    destruct d; cbn [as_integer] in E;
      first [injection E as <- _; first [reflexivity|apply Hc] | eapply T; [| |exact E]; [intros; apply Hc|apply Hc]]. }
  destruct v; cbn [CoerceData] in H; unfold coerce_nil in H;
    repeat match type of H with (if ?c then _ else _) = _ => destruct c end; try discriminate H;
    try (injection H as <- _; cbn; lia);
    try (apply ok_inv in H;
         first [ apply B in H | apply Y in H | apply D in H
               | apply N in H; [|reflexivity] ]; lia);
    try (destruct (text_of x _); injection H as <- _; cbn; lia).
Qed.

Lemma obind_some : forall A B (m : outcome A) (k : A -> outcome B), m <> OutOfFuel -> (forall a, m = Ok a -> k a <> OutOfFuel) -> obind m k <> OutOfFuel.
Proof. intros A B [a| |] k Hm Hk; cbn; auto; discriminate. Qed.
Lemma cmp_loop_some : forall cmp l1 l2, (forall u v, In u l1 -> In v l2 -> cmp u v <> OutOfFuel) -> cmp_loop cmp l1 l2 <> OutOfFuel.
Proof.
  intros cmp. induction l1 as [|u l1 IH]; intros [|v l2] H; cbn [cmp_loop]; try discriminate.
  apply obind_some; [apply H; left; reflexivity|]. intros [c ok] _. destruct (negb (c =? 0) || negb ok); [discriminate|].
  apply IH. intros a b Ha Hb. apply H; right; assumption.
Qed.
Lemma arrays_some : forall cmp l1 l2, (forall u v, In u l1 -> In v l2 -> cmp u v <> OutOfFuel) -> CompareValueArrays cmp l1 l2 <> OutOfFuel.
Proof. intros cmp l1 l2 H. unfold CompareValueArrays. cbv zeta. destruct (negb _); [discriminate|]. now apply cmp_loop_some. Qed.
Lemma entries_in : forall tag kt l b es, map_entries x tag kt l b = Ok es -> forall e, In e es -> In e l \/ In e b.
Proof.
  intros tag kt l b es H e Hi. unfold map_entries in H.
  repeat match type of H with (if ?c then _ else _) = _ => destruct c end; try discriminate H; injection H as <-; cbn in Hi; auto.
  - contradiction.
  - right. eapply Permutation_in; [apply Permutation_sym, order_perm|exact Hi].
Qed.
Lemma fill_in : forall n vs l, fill n vs = Ok l -> forall v, In v l -> v = ANil \/ In v vs.
Proof.
  intros n vs l H v Hi. unfold fill in H. destruct (n <? 0); [discriminate|]. destruct (n <? _); [discriminate|]. injection H as <-.
  apply in_app_iff in Hi. destruct Hi as [Hi|Hi]; [auto|]. apply repeat_spec in Hi. auto.
Qed.
Lemma entries_some : forall tag kt l b, map_entries x tag kt l b <> OutOfFuel.
Proof. intros. unfold map_entries. repeat match goal with |- context [if ?c then _ else _] => destruct c end; discriminate. Qed.
Lemma fill_some : forall n vs, fill n vs <> OutOfFuel.
Proof. intros. unfold fill. repeat match goal with |- context [if ?c then _ else _] => destruct c end; discriminate. Qed.
Lemma keys_some : forall a kt n l b, map_Keys x a kt n l b <> OutOfFuel.
Proof. intros. unfold map_Keys. apply obind_some; [apply entries_some|]. intros. apply fill_some. Qed.
Lemma values_some : forall a kt n l b, map_Values x a kt n l b <> OutOfFuel.
Proof. intros. unfold map_Values. apply obind_some; [apply entries_some|]. intros. apply fill_some. Qed.
Lemma keys_within : forall d a kt n l b ks, Forall (within2 d) l -> Forall (within2 d) b -> map_Keys x a kt n l b = Ok ks ->
  forall k, In k ks -> within d k.
Proof.
  intros d a kt n l b ks Hl Hb H k Hk. unfold map_Keys in H. destruct (map_entries _ _ _ _ _) as [es| |] eqn:E; try discriminate H.
  cbn [obind] in H. destruct (fill_in _ _ _ H k Hk) as [->|Hi]; [apply within_nil|].
  apply in_map_iff in Hi. destruct Hi as (e & <- & Hi). rewrite Forall_forall in Hl, Hb.
  destruct (entries_in _ _ _ _ _ E e Hi) as [Q|Q]; [apply (Hl e Q)|apply (Hb e Q)].
Qed.
Lemma values_within : forall d a kt n l b ks, Forall (within2 d) l -> Forall (within2 d) b -> map_Values x a kt n l b = Ok ks ->
  forall k, In k ks -> within d k.
Proof.
  intros d a kt n l b ks Hl Hb H k Hk. unfold map_Values in H. destruct (map_entries _ _ _ _ _) as [es| |] eqn:E; try discriminate H.
  cbn [obind] in H. destruct (fill_in _ _ _ H k Hk) as [->|Hi]; [apply within_nil|].
  apply in_map_iff in Hi. destruct Hi as (e & <- & Hi). rewrite Forall_forall in Hl, Hb.
  destruct (entries_in _ _ _ _ _ E e Hi) as [Q|Q]; [apply (Hl e Q)|apply (Hb e Q)].
Qed.

Lemma go_eq_some : forall i j, go_eq i j <> OutOfFuel.
Proof. intros i j. destruct i, j; try discriminate; repeat match goal with k : okind |- _ => destruct k end; discriminate. Qed.
Lemma quick_some : forall p i j, quick_eq p i j <> OutOfFuel.
Proof. intros. unfold quick_eq. destruct (p =? BINARY); [discriminate|apply go_eq_some]. Qed.

(** The cases of compare_coerced, the comparison under it being given. *)
Lemma coerced_some : forall rec p D i j ci cj ii jj,
  CoerceData x p i = Ok (ci, ii) -> CoerceData x p j = Ok (cj, jj) -> ii = true -> jj = true -> is_nil i = false -> is_nil j = false ->
  within D i -> within D j -> (forall p, rec p ANil ANil <> OutOfFuel) ->
  (forall d, D = S d -> forall p u v, within d u -> within d v -> rec p u v <> OutOfFuel) ->
  compare_coerced x rec p ci cj <> OutOfFuel.
Proof.
  intros rec p D i j ci cj ii jj Ci Cj -> -> Ni Nj Li Lj H0 Hr. unfold compare_coerced.
  destruct (p =? STRUCT) eqn:E1.
  { destruct ci as [| | | | | | | | | | | | | | | | | | | | | | |ai ni fi ati|]; try discriminate.
    destruct cj as [| | | | | | | | | | | | | | | | | | | | | | |aj nj fj atj|]; try discriminate.
    cbv zeta. destruct (negb _); [discriminate|]. destruct (fc_CompareTo fi (CCont fj)) as [c ok].
    destruct (negb ok || negb (c =? 0)); [discriminate|]. generalize (fc_fields fi). induction l as [|f fs IH]; [discriminate|].
    apply obind_some; [apply H0|]. intros [c2 ok2] _. destruct (negb ok2 || negb (c2 =? 0)); [discriminate|exact IH]. }
  assert (Same : p =? MAP = true \/ p =? LIST = true \/ p =? SET = true -> ci = i /\ cj = j).
  { intro Q. assert (Z : p = MAP \/ p = LIST \/ p = SET) by (destruct Q as [Q|[Q|Q]]; apply Z.eqb_eq in Q; auto). clear Q.
    revert Ci Cj. destruct Z as [-> | [-> | ->]]; destruct i; try discriminate Ni; destruct j; try discriminate Nj; cbn; intros Ci Cj;
      first [discriminate Ci | discriminate Cj | injection Ci as <-; injection Cj as <-; auto]. }
  destruct (p =? MAP) eqn:E2.
  { destruct (Same ltac:(auto)) as [-> ->].
    destruct i as [| | | | | | | | | | | | | | | | | | | | | |ai ki vi si li bi| |]; try discriminate.
    destruct j as [| | | | | | | | | | | | | | | | | | | | | |aj kj vj sj lj bj| |]; try discriminate.
    destruct D as [|d]; [unfold within in Li; cbn in Li; lia|]. specialize (Hr d eq_refl).
    apply within_map in Li. apply within_map in Lj. destruct Li as [Li Bi], Lj as [Lj Bj].
    destruct (negb (ki =? kj)); [discriminate|]. destruct (negb (vi =? vj)); [discriminate|]. destruct (negb _); [discriminate|].
    apply obind_some; [apply keys_some|]. intros k1 K1. apply obind_some; [apply keys_some|]. intros k2 K2.
    apply obind_some.
    { apply arrays_some. intros u v Hu Hv. apply Hr; [exact (keys_within _ _ _ _ _ _ _ Li Bi K1 u Hu)|exact (keys_within _ _ _ _ _ _ _ Lj Bj K2 v Hv)]. }
    intros [c cok] _. destruct (negb (c =? 0) || negb cok); [discriminate|].
    apply obind_some; [apply values_some|]. intros v1 V1. apply obind_some; [apply values_some|]. intros v2 V2.
    apply arrays_some. intros u v Hu Hv. apply Hr; [exact (values_within _ _ _ _ _ _ _ Li Bi V1 u Hu)|exact (values_within _ _ _ _ _ _ _ Lj Bj V2 v Hv)]. }
  destruct (p =? LIST) eqn:E3.
  { destruct (Same ltac:(auto)) as [-> ->].
    destruct i as [| | | | | | | | | | | | | | | | | | | |ai ei li| | | |]; try discriminate.
    destruct j as [| | | | | | | | | | | | | | | | | | | |aj ej lj| | | |]; try discriminate.
    destruct D as [|d]; [unfold within in Li; cbn in Li; lia|]. specialize (Hr d eq_refl).
    apply within_list in Li. apply within_list in Lj. rewrite Forall_forall in Li, Lj.
    destruct (negb (ei =? ej)); [discriminate|]. destruct (negb _); [discriminate|].
    apply cmp_loop_some. intros u v Hu Hv. apply Hr; auto. }
  destruct (p =? SET) eqn:E4.
  { destruct (Same ltac:(auto)) as [-> ->].
    destruct i as [| | | | | | | | | | | | | | | | | | | | |ai ei si li| | |]; try discriminate.
    destruct j as [| | | | | | | | | | | | | | | | | | | | |aj ej sj lj| | |]; try discriminate.
    destruct D as [|d]; [unfold within in Li; cbn in Li; lia|]. specialize (Hr d eq_refl).
    apply within_set in Li. apply within_set in Lj. rewrite Forall_forall in Li, Lj.
    destruct (negb (ei =? ej)); [discriminate|]. destruct (negb _); [discriminate|].
    apply arrays_some. intros u v Hu Hv. apply Hr; auto. }
  unfold compare_scalar. repeat match goal with |- context [if ?c then _ else _] => destruct c end; try discriminate;
    destruct ci; try discriminate; destruct cj; discriminate.
Qed.

Lemma nil_some : forall fuel p, (1 <= fuel)%nat -> Compare x fuel p ANil ANil <> OutOfFuel.
Proof. intros [|fuel] p L; [lia|]. cbn. unfold quick_eq. destruct (p =? BINARY); discriminate. Qed.

(** Compare returns or panics once it has as many calls as the values have levels, and two. *)
Lemma Compare_some : forall d fuel p i j, within d i -> within d j -> (d + 2 <= fuel)%nat -> Compare x fuel p i j <> OutOfFuel.
Proof.
  induction d as [|d IH]; intros fuel p i j Hi Hj Lf; (destruct fuel as [|fuel]; [lia|]); cbn [Compare];
    (apply obind_some; [apply quick_some|]; intros q _; destruct q; [discriminate|];
     destruct (is_nil i) eqn:Ni; [destruct (is_nil j); discriminate|]; destruct (is_nil j) eqn:Nj; [discriminate|];
     apply obind_some; [apply coerce_some|]; intros [ci ii] Ci; apply obind_some; [apply coerce_some|]; intros [cj jj] Cj;
     destruct ii, jj; cbn [negb andb]; try discriminate;
     apply obind_some; [apply quick_some|]; intros q2 _; destruct q2; [discriminate|];
     destruct (is_nil ci); [destruct (is_nil cj); discriminate|]; destruct (is_nil cj); [discriminate|]).
  - apply (coerced_some _ p 0 i j ci cj true true Ci Cj eq_refl eq_refl Ni Nj Hi Hj); [|discriminate]. intro p'. apply nil_some. lia.
  - apply (coerced_some _ p (S d) i j ci cj true true Ci Cj eq_refl eq_refl Ni Nj Hi Hj); [intro p'; apply nil_some; lia|].
    intros d' Ed p' u v Hu Hv. injection Ed as <-. apply IH; [exact Hu|exact Hv|lia].
Qed.

(** ** Filling containers *)
Lemma coerce_within_d : forall d p v w ok, (1 <= d)%nat -> within d v -> CoerceData x p v = Ok (w, ok) -> within d w.
Proof. intros d p v w ok Hd Hv H. apply coerce_within in H. unfold within in *. lia. Qed.

Lemma push_some : forall p v, tl_Push x p v <> OutOfFuel.
Proof. intros p v. unfold tl_Push. cbv zeta. apply obind_some; [apply coerce_some|]. intros [w ok] _. discriminate. Qed.
Lemma push_within : forall d p v p', (1 <= d)%nat -> Forall (within d) (tl_l p) -> within d v -> tl_Push x p v = Ok p' ->
  Forall (within d) (tl_l p').
Proof.
  intros d p v p' Hd Hp Hv H. unfold tl_Push in H. cbv zeta in H.
  destruct (CoerceData _ _ _) as [[w ok]| |] eqn:E; try discriminate H. cbn [obind] in H. injection H as <-. cbn [tl_l].
  destruct ok; [|exact Hp]. apply Forall_app. split; [exact Hp|]. constructor; [|constructor]. eapply coerce_within_d; eassumption.
Qed.

Variable fuel d : nat.
Hypothesis Hd : (1 <= d)%nat.
Hypothesis Hfuel : (d + 2 <= fuel)%nat.

Lemma add_loop_some : forall et v l, within d v -> Forall (within d) l -> add_loop x fuel et v l <> OutOfFuel.
Proof.
  intros et v l Hv. induction l as [|e l IH]; intros Hl; cbn [add_loop]; [discriminate|]. inversion Hl as [|? ? H1 H2]; subst.
  apply obind_some; [eapply Compare_some; eassumption|]. intros [c ok] _. destruct (ok && (0 <=? c)); [discriminate|].
  apply obind_some; [apply IH, H2|]. discriminate.
Qed.
Lemma add_loop_within : forall et v l l', within d v -> Forall (within d) l -> add_loop x fuel et v l = Ok l' -> Forall (within d) l'.
Proof.
  intros et v l. induction l as [|e l IH]; intros l' Hv Hl H; cbn [add_loop] in H; [injection H as <-; constructor|].
  inversion Hl as [|? ? H1 H2]; subst. destruct (Compare _ _ _ _ _) as [[c ok]| |]; try discriminate H. cbn [obind] in H.
  destruct (ok && (0 <=? c)).
  - injection H as <-. destruct (0 <? c); auto.
  - destruct (add_loop _ _ _ _ _) as [r| |] eqn:E; try discriminate H. injection H as <-. constructor; [exact H1|]. eapply IH; eauto.
Qed.
Lemma add_some : forall p v, Forall (within d) (ts_l p) -> within d v -> ts_Add x fuel p v <> OutOfFuel.
Proof.
  intros p v Hp Hv. unfold ts_Add. apply obind_some; [apply coerce_some|]. intros [w ok] E. destruct ok; [|discriminate].
  destruct (ts_l p) as [|e l] eqn:El; [discriminate|]. apply obind_some; [|discriminate].
  apply add_loop_some; [eapply coerce_within_d; eassumption|exact Hp].
Qed.
Lemma add_within : forall p v p', Forall (within d) (ts_l p) -> within d v -> ts_Add x fuel p v = Ok p' -> Forall (within d) (ts_l p').
Proof.
  intros p v p' Hp Hv H. unfold ts_Add in H. destruct (CoerceData _ _ _) as [[w ok]| |] eqn:E; try discriminate H. cbn [obind] in H.
  assert (Hw : within d w) by (eapply coerce_within_d; eassumption).
  destruct ok; [|injection H as <-; exact Hp]. destruct (ts_l p) as [|e l] eqn:El.
  - injection H as <-. cbn. auto.
  - destruct (add_loop _ _ _ _ _) as [r| |] eqn:Ea; try discriminate H. injection H as <-. cbn [ts_l]. eapply add_loop_within; eassumption.
Qed.

Definition deep2 (p : tmap) : Prop := Forall (within2 d) (tm_l p) /\ Forall (within2 d) (tm_b p).
Lemma gm_set_some : forall m k v, gm_set m k v <> OutOfFuel.
Proof.
  induction m as [|[k' v'] m IH]; intros k v; cbn [gm_set]; [discriminate|]. apply obind_some; [apply go_eq_some|].
  intros b _. destruct b; [discriminate|]. apply obind_some; [apply IH|discriminate].
Qed.
Lemma gm_set_within : forall m k v m', Forall (within2 d) m -> within d k -> within d v -> gm_set m k v = Ok m' -> Forall (within2 d) m'.
Proof.
  induction m as [|[k' v'] m IH]; intros k v m' Hm Hk Hv H; cbn [gm_set] in H; [injection H as <-; repeat constructor; assumption|].
  inversion Hm as [|? ? H1 H2]; subst. destruct (go_eq _ _) as [[]| |]; try discriminate H; cbn [obind] in H.
  - injection H as <-. constructor; [split; assumption|exact H2].
  - destruct (gm_set m k v) as [r| |] eqn:E; try discriminate H. injection H as <-. constructor; [exact H1|]. exact (IH k v r H2 Hk Hv E).
Qed.
Lemma list_set_some : forall kt k v l, within d k -> Forall (within2 d) l -> list_set x fuel kt k v l <> OutOfFuel.
Proof.
  intros kt k v l Hk. induction l as [|[k' v'] l IH]; intros Hl; cbn [list_set]; [discriminate|]. inversion Hl as [|? ? [H1 _] H2]; subst.
  apply obind_some; [eapply Compare_some; eassumption|]. intros [c ok] _. destruct (ok && (0 <=? c)); [discriminate|].
  apply obind_some; [apply IH, H2|discriminate].
Qed.
Lemma list_set_within : forall kt k v l l', within d k -> within d v -> Forall (within2 d) l -> list_set x fuel kt k v l = Ok l' ->
  Forall (within2 d) l'.
Proof.
  intros kt k v l. induction l as [|[k' v'] l IH]; intros l' Hk Hv Hl H; cbn [list_set] in H;
    [injection H as <-; repeat constructor; assumption|].
  inversion Hl as [|? ? H1 H2]; subst. destruct (Compare _ _ _ _ _) as [[c ok]| |]; try discriminate H. cbn [obind] in H.
  assert (Hkv : within2 d (k, v)) by (split; assumption).
  destruct (ok && (0 <=? c)).
  - injection H as <-. destruct (c =? 0); auto.
  - destruct (list_set _ _ _ _ _ _) as [r| |] eqn:E; try discriminate H. injection H as <-. constructor; [exact H1|]. eapply IH; eauto.
Qed.
Lemma set_some : forall p k v, deep2 p -> within d k -> within d v -> tm_Set x fuel p k v <> OutOfFuel.
Proof.
  intros p k v [Hl Hb] Hk Hv. unfold tm_Set. cbv zeta. apply obind_some; [apply coerce_some|]. intros [ck ok] E1.
  destruct (negb ok); [discriminate|]. apply obind_some; [apply coerce_some|]. intros [cv ok2] E2.
  destruct (negb ok2); [discriminate|].
  match goal with |- context [if ?c then _ else _] => destruct c end.
  - apply obind_some; [|discriminate]. apply list_set_some; [exact (coerce_within_d _ _ _ _ _ Hd Hk E1)|exact Hl].
  - destruct (is_nil k); [discriminate|]. destruct (key_typed _ ck); [|discriminate]. apply obind_some; [apply gm_set_some|discriminate].
Qed.
Lemma set_within : forall p k v p', deep2 p -> within d k -> within d v -> tm_Set x fuel p k v = Ok p' -> deep2 p'.
Proof.
  intros p k v p' [Hl Hb] Hk Hv H. unfold tm_Set in H. cbv zeta in H.
  destruct (CoerceData x _ k) as [[ck ok]| |] eqn:E1; try discriminate H. cbn [obind] in H.
  assert (Wk : within d ck) by (eapply coerce_within_d; [exact Hd| |exact E1]; exact Hk).
  destruct (negb ok); [injection H as <-; split; assumption|].
  destruct (CoerceData x _ v) as [[cv ok2]| |] eqn:E2; try discriminate H. cbn [obind] in H.
  assert (Wv : within d cv) by (eapply coerce_within_d; [exact Hd| |exact E2]; exact Hv).
  destruct (negb ok2); [injection H as <-; split; assumption|].
  match type of H with (if ?c then _ else _) = _ => destruct c end.
  - destruct (list_set _ _ _ _ _ _) as [r| |] eqn:E; try discriminate H. injection H as <-. split; [|exact Hb]. cbn [tm_l].
    exact (list_set_within _ _ _ _ _ Wk Wv Hl E).
  - destruct (is_nil k); [injection H as <-; split; assumption|]. destruct (key_typed _ ck); [|discriminate H].
    destruct (gm_set _ _ _) as [r| |] eqn:E; try discriminate H. injection H as <-. split; [exact Hl|]. cbn [tm_b].
    exact (gm_set_within _ _ _ _ Hb Wk Hv E).
Qed.
End Depth.

(** ** More calls change nothing *)
Section More.
Variable x : ext.
Definition more {A} (o1 o2 : outcome A) : Prop := o1 <> OutOfFuel -> o2 = o1.
Lemma more_refl : forall A (o : outcome A), more o o.
Proof. intros A o _. reflexivity. Qed.
Lemma more_bind : forall A B (m1 m2 : outcome A) (k1 k2 : A -> outcome B), more m1 m2 -> (forall a, more (k1 a) (k2 a)) ->
  more (obind m1 k1) (obind m2 k2).
Proof.
  intros A B m1 m2 k1 k2 Hm Hk N. destruct m1 as [a| |]; cbn in *; [|rewrite Hm by discriminate; reflexivity|congruence].
  rewrite Hm by discriminate. cbn. apply Hk, N.
Qed.
Lemma more_if : forall A (c : bool) (a1 a2 b1 b2 : outcome A), more a1 a2 -> more b1 b2 -> more (if c then a1 else b1) (if c then a2 else b2).
Proof. intros A [] a1 a2 b1 b2 Ha Hb; assumption. Qed.
Lemma more_loop : forall c1 c2, (forall u v, more (c1 u v) (c2 u v)) -> forall l1 l2, more (cmp_loop c1 l1 l2) (cmp_loop c2 l1 l2).
Proof.
  intros c1 c2 H. induction l1 as [|u l1 IH]; intros [|v l2]; cbn [cmp_loop]; try apply more_refl.
  apply more_bind; [apply H|]. intros [c ok]. apply more_if; [apply more_refl|apply IH].
Qed.
Lemma more_arrays : forall c1 c2, (forall u v, more (c1 u v) (c2 u v)) -> forall l1 l2,
  more (CompareValueArrays c1 l1 l2) (CompareValueArrays c2 l1 l2).
Proof. intros c1 c2 H l1 l2. unfold CompareValueArrays. cbv zeta. apply more_if; [apply more_refl|now apply more_loop]. Qed.
Lemma more_coerced : forall r1 r2, (forall p u v, more (r1 p u v) (r2 p u v)) -> forall p ci cj,
  more (compare_coerced x r1 p ci cj) (compare_coerced x r2 p ci cj).
Proof.
  intros r1 r2 H p ci cj. unfold compare_coerced. apply more_if; [|apply more_if; [|apply more_if; [|apply more_if; [|apply more_refl]]]].
  - destruct ci; try apply more_refl. destruct cj; try apply more_refl. cbv zeta. apply more_if; [apply more_refl|].
    destruct (fc_CompareTo _ _) as [c ok]. apply more_if; [apply more_refl|]. generalize (fc_fields fields). induction l as [|f fs IH]; [apply more_refl|].
    apply more_bind; [apply H|]. intros [c2 ok2]. apply more_if; [apply more_refl|exact IH].
  - destruct ci; try apply more_refl. destruct cj; try apply more_refl. repeat (apply more_if; [apply more_refl|]).
    apply more_bind; [apply more_refl|]. intro k1. apply more_bind; [apply more_refl|]. intro k2.
    apply more_bind; [apply more_arrays; apply H|]. intros [c ok]. apply more_if; [apply more_refl|].
    apply more_bind; [apply more_refl|]. intro v1. apply more_bind; [apply more_refl|]. intro v2. apply more_arrays; apply H.
  - destruct ci; try apply more_refl. destruct cj; try apply more_refl. repeat (apply more_if; [apply more_refl|]). apply more_loop; apply H.
  - destruct ci; try apply more_refl. destruct cj; try apply more_refl. do 2 (apply more_if; [apply more_refl|]). apply more_arrays; apply H.
Qed.
Lemma Compare_more : forall f g p i j, (f <= g)%nat -> more (Compare x f p i j) (Compare x g p i j).
Proof.
  induction f as [|f IH]; intros g p i j L; [intro N; destruct N; reflexivity|]. destruct g as [|g]; [lia|]. cbn [Compare].
  apply more_bind; [apply more_refl|]. intro q. apply more_if; [apply more_refl|]. apply more_if; [apply more_refl|].
  apply more_if; [apply more_refl|]. apply more_bind; [apply more_refl|]. intros [ci ii]. apply more_bind; [apply more_refl|]. intros [cj jj].
  do 3 (apply more_if; [apply more_refl|]). apply more_bind; [apply more_refl|]. intro q2. do 3 (apply more_if; [apply more_refl|]).
  apply more_coerced. intros p' u v. apply IH. lia.
Qed.
End More.
