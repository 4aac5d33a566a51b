(** TType.Compare (ttype.go:255-505) and the container objects it looks into. *)
From Coq Require Import ZArith List Bool Lia.
From Verif Require Import Base Arith F64 Strconv TField GoVal.
Import ListNotations.
Open Scope Z_scope.

(** ** Observations of containers *)

(** Position part of a tMap's entries in the order one iteration gives them: the Go map part
    for base key types, the list part otherwise (tmap.go:558-600).  MAP and unknown key types
    panic in the iterating goroutine. *)
Definition map_entries (x : ext) (tag : Z) (kt : Z) (l b : list (any * any))
  : outcome (list (any * any)) :=
  if mem kt [STOP; VOID] then Ok []
  else if mem kt [BOOL; BYTE; I16; I32; I64; DOUBLE; STRING; UTF8; UTF16] then Ok (x_order x tag b)
  else if mem kt [BINARY; STRUCT; LIST; SET] then Ok l
  else Panic.

(** tMap.Len, tmap.go:101-126. *)
Definition map_Len (kt size : Z) (l b : list (any * any)) : Z :=
  if negb (length l =? 0)%nat then Z.of_nat (length l)
  else if mem kt [STOP; VOID] then 0
  else if mem kt [BOOL; BYTE; I16; I32; I64; DOUBLE; STRING; UTF8; UTF16] then Z.of_nat (length b)
  else size.

(** make([]interface{}, size) filled from a channel, tmap.go:749-769. *)
Definition fill (size : Z) (vs : list any) : outcome (list any) :=
  if size <? 0 then Panic
  else if size <? Z.of_nat (length vs) then Panic
  else Ok (vs ++ repeat ANil (Z.to_nat size - length vs)).

Definition map_Keys (x : ext) (a kt size : Z) (l b : list (any * any)) : outcome (list any) :=
  es <- map_entries x (2 * a) kt l b ;; fill (map_Len kt size l b) (map fst es).
Definition map_Values (x : ext) (a kt size : Z) (l b : list (any * any)) : outcome (list any) :=
  es <- map_entries x (2 * a + 1) kt l b ;; fill (map_Len kt size l b) (map snd es).

(** tSet.Len, tset.go:69-74. *)
Definition set_Len (size : Z) (l : list any) : Z :=
  if negb (length l =? 0)%nat then Z.of_nat (length l) else size.

(** A member of a struct, by its id: p.Name in generated code. *)
Definition attribute (attrs : list (Z * any)) (id : Z) : any :=
  match lookup_z attrs id with Some v => v | None => ANil end.

(** AttributeFromFieldId, tstruct.go:80-82: nil whatever the struct holds.  Generated structs
    embed thrift.TStruct and define AttributeByFieldId instead (t_go_generator.cc:1002-1022), so
    they have this method by promotion.  Types that define the method themselves are not
    modelled; the repository has none.  A struct whose embedded TStruct is nil (one not made by
    its New function) panics here, which is not modelled either. *)
Definition AttributeFromFieldId (s : any) (id : Z) : any := ANil.

(** Comparison of two values of one Go integer type, e.g. ttype.go:321-333. *)
Definition cmp3 (eq lt : bool) : Z * bool :=
  if eq then (0, true) else if lt then (-1, true) else (1, true).

(** The switch on the scalar types after coercion, ttype.go:300-402. *)
Definition compare_scalar (p : Z) (ci cj : any) : outcome (Z * bool) :=
  if (p =? STOP) || (p =? VOID) then Ok (0, false)
  else if p =? BOOL then
    match ci, cj with
    | ABool a, ABool b => Ok (if eqb a b then (0, true) else if negb a then (-1, true) else (1, true))
    | _, _ => Ok (0, false)
    end
  else if p =? BYTE then
    match ci, cj with
    | AByte a, AByte b => Ok (cmp3 (a =? b) (a <? b)) | _, _ => Ok (0, false)
    end
  else if p =? DOUBLE then
    match ci, cj with
    | AF64 a, AF64 b => Ok (cmp3 (f64_eq a b) (f64_lt a b)) | _, _ => Ok (0, false)
    end
  else if p =? I16 then
    match ci, cj with
    | AInt16 a, AInt16 b => Ok (cmp3 (a =? b) (a <? b)) | _, _ => Ok (0, false)
    end
  else if p =? I32 then
    match ci, cj with
    | AInt32 a, AInt32 b => Ok (cmp3 (a =? b) (a <? b)) | _, _ => Ok (0, false)
    end
  else if p =? I64 then
    match ci, cj with
    | AInt64 a, AInt64 b => Ok (cmp3 (a =? b) (a <? b)) | _, _ => Ok (0, false)
    end
  else if (p =? STRING) || (p =? UTF8) || (p =? UTF16) then
    match ci, cj with
    | AStr a, AStr b => Ok (cmp3 (str_eq a b) (str_lt a b)) | _, _ => Ok (0, false)
    end
  else if p =? BINARY then
    match ci, cj with
    | ABytes a, ABytes b => Ok (bytes_Compare a b, true) | _, _ => Ok (0, false)
    end
  else Panic.

(** CompareValueArrays, ttype.go:491-505, given the comparison of elements. *)
Fixpoint cmp_loop (cmp : any -> any -> outcome (Z * bool)) (li lj : list any) : outcome (Z * bool) :=
  match li, lj with
  | vi :: li', vj :: lj' =>
    ' (c, cok) <- cmp vi vj ;;
    if negb (c =? 0) || negb cok then Ok (c, cok) else cmp_loop cmp li' lj'
  | _, _ => Ok (0, true)
  end.
Definition CompareValueArrays (cmp : any -> any -> outcome (Z * bool)) (li lj : list any)
  : outcome (Z * bool) :=
  let c := CompareInt (Z.of_nat (length li)) (Z.of_nat (length lj)) in
  if negb (c =? 0) then Ok (c, true) else cmp_loop cmp li lj.

Section Cmp.
Variable x : ext.

(** What Compare does with two distinct non-nil coerced values.  [rec p] compares under type
    [p].  STRUCT 409-427, MAP 428-449, LIST 450-473, SET 474-490. *)
Definition compare_coerced (rec : Z -> any -> any -> outcome (Z * bool)) (p : Z) (ci cj : any)
  : outcome (Z * bool) :=
  if p =? STRUCT then
    match ci, cj with
    | AStruct _ ni fi _, AStruct _ nj fj _ =>
      let cmp := CompareString ni nj in
      if negb (cmp =? 0) then Ok (cmp, true)
      else
        let '(cmp, ok) := fc_CompareTo fi (CCont fj) in
        if negb ok || negb (cmp =? 0) then Ok (cmp, ok)
        else
          (fix loop (fs : list tfield) : outcome (Z * bool) :=
             match fs with
             | [] => Ok (0, true)
             | f :: fs' =>
               ' (cmp, ok) <- rec (f_type f) (AttributeFromFieldId ci (f_id f)) (AttributeFromFieldId cj (f_id f)) ;;
               if negb ok || negb (cmp =? 0) then Ok (cmp, ok) else loop fs'
             end) (fc_fields fi)
    | _, _ => Ok (0, false)
    end
  else if p =? MAP then
    match ci, cj with
    | AMap ai ki vi si li bi, AMap aj kj vj sj lj bj =>
      if negb (ki =? kj) then Ok (CompareInt ki kj, true)
      else if negb (vi =? vj) then Ok (CompareInt vi vj, true)
      else if negb (map_Len ki si li bi =? map_Len kj sj lj bj)
      then Ok (CompareInt (map_Len ki si li bi) (map_Len kj sj lj bj), true)
      else
        k1 <- map_Keys x ai ki si li bi ;;
        k2 <- map_Keys x aj kj sj lj bj ;;
        ' (c, cok) <- CompareValueArrays (rec ki) k1 k2 ;;
        if negb (c =? 0) || negb cok then Ok (c, cok)
        else
          v1 <- map_Values x ai ki si li bi ;;
          v2 <- map_Values x aj kj sj lj bj ;;
          CompareValueArrays (rec vi) v1 v2
    | _, _ => Ok (0, false)
    end
  else if p =? LIST then
    match ci, cj with
    | AList _ ei li, AList _ ej lj =>
      if negb (ei =? ej) then Ok (CompareInt ei ej, true)
      else if negb (length li =? length lj)%nat
      then Ok (CompareInt (Z.of_nat (length li)) (Z.of_nat (length lj)), true)
      else cmp_loop (rec ei) li lj
    | _, _ => Ok (0, false)
    end
  else if p =? SET then
    match ci, cj with
    | ASet _ ei si li, ASet _ ej sj lj =>
      if negb (ei =? ej) then Ok (CompareInt ei ej, true)
      else if negb (set_Len si li =? set_Len sj lj)
      then Ok (CompareInt (set_Len si li) (set_Len sj lj), true)
      else CompareValueArrays (rec ei) li lj
    | _, _ => Ok (0, false)
    end
  else compare_scalar p ci cj.

(** i == j unless p is BINARY. *)
Definition quick_eq (p : Z) (i j : any) : outcome bool :=
  if p =? BINARY then Ok false else go_eq i j.

(** TType.Compare, ttype.go:260-488. *)
Fixpoint Compare (fuel : nat) (p : Z) (i j : any) : outcome (Z * bool) :=
  match fuel with
  | O => OutOfFuel
  | S fuel' =>
    q <- quick_eq p i j ;;
    if (q : bool) then Ok (0, true)
    else if is_nil i then Ok (if is_nil j then 0 else -1, true)
    else if is_nil j then Ok (1, true)
    else
      ' (ci, iok) <- CoerceData x p i ;;
      ' (cj, jok) <- CoerceData x p j ;;
      if iok && negb jok then Ok (1, true)
      else if negb iok && jok then Ok (-1, true)
      else if negb iok && negb jok then Ok (0, false)
      else
        q2 <- quick_eq p ci cj ;;
        if (q2 : bool) then Ok (0, true)
        else if is_nil ci then Ok (if is_nil cj then 0 else -1, true)
        else if is_nil cj then Ok (1, true)
        else compare_coerced (Compare fuel') p ci cj
  end.

(** TType.Less, ttype.go:255-258. *)
Definition TType_Less (fuel : nat) (p : Z) (i j : any) : outcome bool :=
  ' (cmp, ok) <- Compare fuel p i j ;; Ok (ok && (0 <? cmp)).

End Cmp.

(** ** Order of byte strings *)
Lemma str_eq_iff : forall a b, str_eq a b = true <-> a = b.
Proof.
  induction a as [|x a IH]; destruct b as [|y b]; cbn; split; intros H; try congruence.
  - apply andb_prop in H as [H1 H2]. apply IH in H2. apply Z.eqb_eq in H1. congruence.
  - injection H as -> ->. rewrite Z.eqb_refl. cbn. apply IH. reflexivity.
Qed.
Lemma str_eq_refl : forall a, str_eq a a = true.
Proof. intros. apply str_eq_iff. reflexivity. Qed.
Lemma str_lt_irrefl : forall a, str_lt a a = false.
Proof. induction a as [|x a IH]; cbn; auto. rewrite Z.ltb_irrefl, Z.eqb_refl, IH. reflexivity. Qed.
Lemma str_lt_trans : forall a b c, str_lt a b = true -> str_lt b c = true -> str_lt a c = true.
Proof.
  induction a as [|x a IH]; destruct b as [|y b]; destruct c as [|z c]; cbn; auto; try discriminate.
  intros H1 H2. apply orb_prop in H1. apply orb_prop in H2. apply orb_true_iff.
  destruct H1 as [H1|H1], H2 as [H2|H2].
  - left. lia.
  - apply andb_prop in H2 as [H2 _]. left. lia.
  - apply andb_prop in H1 as [H1 _]. left. lia.
  - apply andb_prop in H1 as [H1 H1']. apply andb_prop in H2 as [H2 H2']. right.
    apply andb_true_iff. split; [lia|]. eapply IH; eauto.
Qed.
Lemma str_lt_tri : forall a b, a = b \/ str_lt a b = true \/ str_lt b a = true.
Proof.
  induction a as [|x a IH]; destruct b as [|y b]; cbn; auto.
  destruct (Z.lt_trichotomy x y) as [H|[H|H]].
  - right; left. apply orb_true_iff. left. lia.
  - subst y. destruct (IH b) as [->|[H|H]]; [left; auto|right; left|right; right];
      rewrite Z.eqb_refl, H; cbn; apply orb_true_r.
  - right; right. apply orb_true_iff. left. lia.
Qed.
Lemma str_lt_asym : forall a b, str_lt a b = true -> str_lt b a = false.
Proof.
  intros a b H. destruct (str_lt b a) eqn:E; auto.
  pose proof (str_lt_trans _ _ _ H E) as C. rewrite str_lt_irrefl in C. discriminate.
Qed.

Lemma CompareString_0 : forall a b, CompareString a b = 0 <-> a = b.
Proof.
  intros a b. unfold CompareString. split.
  - destruct (str_lt b a) eqn:E1; [discriminate|]. destruct (str_lt a b) eqn:E2; [discriminate|].
    intros _. destruct (str_lt_tri a b) as [H|[H|H]]; congruence.
  - intros ->. rewrite str_lt_irrefl. reflexivity.
Qed.
Lemma bytes_Compare_String : forall a b, bytes_Compare a b = CompareString a b.
Proof.
  intros a b. unfold bytes_Compare, CompareString.
  destruct (str_lt a b) eqn:E1; [rewrite (str_lt_asym _ _ E1); reflexivity|reflexivity].
Qed.
Lemma CompareInt_0 : forall a b, CompareInt a b = 0 <-> a = b.
Proof.
  intros a b. unfold CompareInt.
  destruct (Z.ltb_spec b a), (Z.ltb_spec a b); split; intros; lia.
Qed.
