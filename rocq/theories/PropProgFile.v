(** C90, C91, C92, C93. *)
From Coq Require Import ZArith List Bool Lia String Permutation.
From Coq Require Import ZifyBool ZifyNat.
From Verif Require Import Base Strconv Gen Names PropNames StructDef PropStructDef ProgFile.
Import ListNotations.
Open Scope Z_scope.
Open Scope list_scope.

(** ** C90: imports *)

Lemma imports_app : forall a b, imports (a ++ b) = imports a ++ imports b.
Proof. intros. unfold imports. apply flat_map_app. Qed.
Lemma pkgs_app : forall a b, pkgs (a ++ b) = pkgs a ++ pkgs b.
Proof. intros. unfold pkgs. apply flat_map_app. Qed.
Lemma names_app : forall a b, names (a ++ b) = names a ++ names b.
Proof. intros. unfold names. apply flat_map_app. Qed.
Lemma uses_app : forall a b, uses (a ++ b) = uses a ++ uses b.
Proof. intros. unfold uses. apply flat_map_app. Qed.
Definition is_decl (i : item) : bool := match i with Decl _ _ _ => true | _ => false end.
Lemma imports_decls : forall f, forallb is_decl f = true -> imports f = [].
Proof. induction f as [|[m|n q u] f IH]; cbn; intros H; [reflexivity|discriminate|auto]. Qed.
Lemma decls_flat : forall A (g : A -> list item) l, (forall a, forallb is_decl (g a) = true) ->
  forallb is_decl (flat_map g l) = true.
Proof. intros A g l H. induction l as [|a l IH]; [reflexivity|]. cbn. rewrite forallb_app, H, IH. reflexivity. Qed.

Definition std : list bytes := [s_fmt; s_math; s_thrift].

(** What a file is: the three imports, func init, [inc] imported after it, and declarations. *)
Lemma imports_ok_shape : forall self inc ds, forallb is_decl ds = true ->
  (imports_ok self (go_imports ++ map Import inc ++ ds) <->
   inc = [] /\ ~ In self std /\ (forall m, In m (pkgs ds) -> In m std) /\ In s_fmt (pkgs ds) /\ In s_thrift (pkgs ds)).
Proof.
  intros self inc ds Hd.
  assert (Ii : imports (map Import inc) = inc) by (induction inc as [|m l IH]; [reflexivity|cbn; f_equal; exact IH]).
  split.
  - intros (H1 & H2 & H3 & H4).
    assert (E : inc = []).
    { specialize (H1 [Import s_fmt; Import s_math; Import s_thrift] [] [s_math] [] (map Import inc ++ ds) eq_refl).
      rewrite imports_app, Ii in H1. apply app_eq_nil in H1. tauto. }
    subst inc. cbn [map app] in *. rewrite imports_app in *. rewrite (imports_decls ds Hd), app_nil_r in *.
    change (imports go_imports) with std in *.
    assert (P : forall m, In m (pkgs (go_imports ++ ds)) <-> m = s_math \/ In m (pkgs ds)).
    { intros m. rewrite pkgs_app. cbn. intuition. }
    split; [reflexivity|]. split; [exact H4|]. split; [|split].
    + intros m Hm. apply H3, P. right. exact Hm.
    + assert (X : In s_fmt std) by (left; reflexivity). apply H3, P in X. destruct X as [X|X]; [discriminate X|exact X].
    + assert (X : In s_thrift std) by (right; right; left; reflexivity). apply H3, P in X.
      destruct X as [X|X]; [discriminate X|exact X].
  - intros (-> & H1 & H2 & H3 & H4). cbn [map app].
    assert (Ei : imports (go_imports ++ ds) = std) by (rewrite imports_app, (imports_decls ds Hd); reflexivity).
    unfold imports_ok. rewrite Ei. split; [|split; [|split; [|exact H1]]].
    + intros pre n q u post E. apply imports_decls.
      destruct pre as [|a [|b [|c pre]]]; cbn in E; try discriminate. injection E; intros E' _ _ _.
      destruct pre as [|d pre]; cbn in E'; injection E'; intros E2.
      * intros. subst. exact Hd.
      * intros _. subst ds. rewrite forallb_app in Hd. cbn in Hd. apply andb_true_iff in Hd. tauto.
    + unfold std. repeat constructor; cbn; intuition discriminate.
    + intros m. rewrite pkgs_app. cbn. split.
      * intros [<-|[<-|[<-|[]]]]; auto.
      * intros [<-|H]; [auto|]. exact (H2 m H).
Qed.

Lemma type_pkgs_std : forall t m, In m (type_pkgs t) -> In m std.
Proof. intros [| |a b|a b] m; cbn; intuition. Qed.
Lemma in_pkgs_flat : forall A (g : A -> list item) l m, In m (pkgs (flat_map g l)) <-> exists a, In a l /\ In m (pkgs (g a)).
Proof.
  intros A g l m. induction l as [|a l IH]; cbn.
  - split; [tauto|intros (? & [] & _)].
  - rewrite pkgs_app, in_app_iff, IH. split.
    + intros [H|(b & Hb & H)]; eauto.
    + intros (b & [<-|Hb] & H); eauto.
Qed.
Lemma in_flat_std : forall A (g : A -> list bytes) l m, (forall a, In m (g a) -> In m std) -> In m (flat_map g l) -> In m std.
Proof. intros A g l m H I. apply in_flat_map in I as (a & _ & Ha). eauto. Qed.

(** The files of a program satisfy the rules for imports exactly when the program includes no
    other, declares a struct or exception, every service extends none and has a function, and its
    module is not called like one of the three packages. *)
Theorem C90_iff : forall p,
  (forall f, In f (files p) -> imports_ok (p_module p) f) <->
  p_includes p = [] /\ p_structs p <> [] /\
  (forall s, In s (p_services p) -> ps_extends s = None /\ ps_fns s <> []) /\
  ~ In (p_module p) [lit "fmt"; lit "math"; lit "thrift"].
Proof.
  intros p. change [lit "fmt"; lit "math"; lit "thrift"] with std.
  assert (T : imports_ok (p_module p) (types_file p) <->
    p_includes p = [] /\ ~ In (p_module p) std /\ p_structs p <> []).
  { unfold types_file, render_includes.
    set (ds := flat_map generate_typedef (p_typedefs p) ++ _).
    assert (Hd : forallb is_decl ds = true).
    { unfold ds. rewrite !forallb_app, !decls_flat; [reflexivity|..]; try reflexivity.
      intros a. unfold generate_typedef. destruct (typedef_skipped a); reflexivity. }
    rewrite (imports_ok_shape _ _ _ Hd).
    assert (S : forall m, In m (pkgs ds) -> In m std).
    { intros m. unfold ds. rewrite !pkgs_app, !in_app_iff, !in_pkgs_flat.
      intros [(a & _ & H)|[(a & _ & H)|[(a & _ & H)|[(a & _ & H)|H]]]].
      - unfold generate_typedef in H. destruct (typedef_skipped a); [destruct H|]. cbn in H. rewrite app_nil_r in H.
        exact (type_pkgs_std _ _ H).
      - destruct H.
      - cbn in H. rewrite app_nil_r in H. exact (type_pkgs_std _ _ H).
      - cbn in H |- *. tauto.
      - cbn in H. rewrite app_nil_r in H. revert H. apply in_flat_std. intros a. destruct (pc_lib a); cbn; tauto. }
    assert (F : In s_fmt (pkgs ds) -> p_structs p <> []).
    { unfold ds. rewrite !pkgs_app, !in_app_iff, !in_pkgs_flat. intros H E. rewrite E in H.
      destruct H as [(a & _ & H)|[(a & _ & H)|[(a & _ & H)|[(a & [] & _)|H]]]].
      - unfold generate_typedef in H. destruct (typedef_skipped a); [destruct H|]. cbn in H. rewrite app_nil_r in H.
        destruct (snd a); cbn in H; intuition discriminate.
      - destruct H.
      - cbn in H. rewrite app_nil_r in H. destruct (pc_ty a); cbn in H; intuition discriminate.
      - cbn in H. rewrite app_nil_r in H. apply in_flat_map in H as (c & _ & Hc). destruct (pc_lib c); cbn in Hc; intuition discriminate. }
    assert (B : p_structs p <> [] -> In s_fmt (pkgs ds) /\ In s_thrift (pkgs ds)).
    { intros N. destruct (p_structs p) as [|x l] eqn:E; [congruence|].
      unfold ds. rewrite !pkgs_app, !in_app_iff, !in_pkgs_flat.
      split; right; right; right; left; exists x; (split; [left; reflexivity|cbn; tauto]). }
    tauto. }
  assert (V : forall s, imports_ok (p_module p) (service_file s) <->
    ps_extends s = None /\ ~ In (p_module p) std /\ ps_fns s <> []).
  { intros s. unfold service_file.
    set (inc := match ps_extends s with Some (m, _) => [m] | None => [] end).
    replace (match ps_extends s with Some (m, _) => [Import m] | None => [] end) with (map Import inc)
      by (unfold inc; destruct (ps_extends s) as [[m n]|]; reflexivity).
    set (ds := generate_interface s ++ _).
    assert (Hd : forallb is_decl ds = true).
    { unfold ds, generate_client, generate_server. cbn [app forallb is_decl generate_interface andb].
      rewrite forallb_app. cbn [forallb is_decl andb]. rewrite forallb_app, !decls_flat; try reflexivity. }
    rewrite (imports_ok_shape _ _ _ Hd).
    assert (Ei : inc = [] <-> ps_extends s = None) by (unfold inc; destruct (ps_extends s) as [[m n]|]; split; congruence).
    assert (D : pkgs ds = (extends_pkgs s ++ flat_map type_pkgs (flat_map fn_types (ps_fns s))) ++
      (s_thrift :: extends_pkgs s) ++ pkgs (flat_map (client_method s) (ps_fns s)) ++
      (s_thrift :: extends_pkgs s) ++ pkgs (flat_map (process_fn s) (ps_fns s)) ++ pkgs (flat_map fn_helpers (ps_fns s))).
    { unfold ds. rewrite !pkgs_app. unfold generate_interface, generate_client, generate_server.
      cbn [pkgs flat_map app]. rewrite ?app_nil_r. cbn [app]. rewrite <- ?app_assoc. reflexivity. }
    assert (F : ps_extends s = None -> In s_fmt (pkgs ds) -> ps_fns s <> []).
    { intros E H N. rewrite D, N in H. unfold extends_pkgs in H. rewrite E in H. cbn in H. intuition discriminate. }
    assert (B : ps_fns s <> [] -> In s_fmt (pkgs ds) /\ In s_thrift (pkgs ds)).
    { intros N. rewrite D. destruct (ps_fns s) as [|x l] eqn:E; [congruence|].
      split; do 5 (apply in_or_app; right); apply in_pkgs_flat; exists x; (split; [left; reflexivity|cbn; tauto]). }
    assert (S : ps_extends s = None -> forall m, In m (pkgs ds) -> In m std).
    { intros E m. rewrite D. unfold extends_pkgs. rewrite E. cbn [app]. rewrite in_app_iff. cbn [In].
      rewrite in_app_iff. cbn [In]. rewrite in_app_iff.
      assert (Th : In s_thrift std) by (right; right; left; reflexivity).
      intros [H|[<-|[H|[<-|[H|H]]]]]; auto.
      - revert H. apply in_flat_std. intros t. apply type_pkgs_std.
      - apply in_pkgs_flat in H as (f & _ & H). cbn in H. rewrite app_nil_r in H. destruct H as [<-|H]; [exact Th|].
        revert H. apply in_flat_std. intros t. apply type_pkgs_std.
      - apply in_pkgs_flat in H as (f & _ & H). cbn in H |- *. tauto.
      - apply in_pkgs_flat in H as (f & _ & H). cbn in H |- *. tauto. }
    rewrite Ei. tauto. }
  unfold files. split.
  - intros H.
    pose proof (proj1 T (H _ (or_introl eq_refl))) as (H1 & H2 & H3).
    split; [exact H1|]. split; [exact H3|]. split; [|exact H2]. intros s Hs.
    destruct (proj1 (V s) (H _ (or_intror (in_map service_file _ _ Hs)))) as (A & _ & B). auto.
  - intros (H1 & H2 & H3 & H4) f [<-|Hf]; [apply T; auto|].
    apply in_map_iff in Hf as (s & <- & Hs). apply V. destruct (H3 s Hs). auto.
Qed.
Print Assumptions C90_iff.

(** Programs the compiler takes whose files break the rules: one that includes another; one of an
    enum; one of a service that extends one of the same program; one of a service that has no
    function. *)
(** What ttypes.go of a program without structs imports in vain: fmt always, the library unless a typedef or a constant
    is a container or the value of a constant needs it.  (math is used by func init.) *)
Theorem C90_unused : forall p, p_structs p = [] -> p_includes p = [] -> forall m, In m (imports (types_file p)) ->
  (~ In m (pkgs (types_file p)) <->
   m = lit "fmt" \/
   (m = lit "thrift" /\ (forall d, In d (p_typedefs p) -> snd d <> IContainer) /\
    forall c, In c (p_consts p) -> pc_ty c <> IContainer /\ pc_lib c = false)).
Proof.
  intros p Es Ei m Hm. change (lit "fmt") with s_fmt. change (lit "thrift") with s_thrift.
  assert (Hs : In m std).
  { unfold types_file in Hm. rewrite imports_app in Hm. apply in_app_or in Hm as [Hm|Hm]; [exact Hm|].
    unfold render_includes in Hm. rewrite Ei in Hm. cbn [map app] in Hm. exfalso. revert Hm.
    rewrite imports_decls; [auto|].
    rewrite !forallb_app, !decls_flat; [reflexivity|..]; try reflexivity.
    intros a. unfold generate_typedef. destruct (typedef_skipped a); reflexivity. }
  assert (Pk : forall A (g : A -> list item) l k, In k (pkgs (flat_map g l)) <-> exists a, In a l /\ In k (pkgs (g a))).
  { intros A g l k. induction l as [|a l IH]; cbn [flat_map].
    - split; [intros []|intros (a & [] & _)].
    - rewrite pkgs_app, in_app_iff, IH. split.
      + intros [H|(b & Hb & H)]; [exists a|exists b]; split; auto; [left; reflexivity|right; exact Hb].
      + intros (b & [<-|Hb] & H); [left; exact H|right; eauto]. }
  assert (Lib : forall k, In k (pkgs (types_file p)) <-> k = s_math \/ (k = s_thrift /\
    ((exists d, In d (p_typedefs p) /\ snd d = IContainer) \/
     exists c, In c (p_consts p) /\ (pc_ty c = IContainer \/ pc_lib c = true)))).
  { intro k. unfold types_file, render_includes. rewrite Es, Ei. cbn [map flat_map app]. rewrite !pkgs_app, !in_app_iff, !Pk.
    assert (Ty : forall t, In k (type_pkgs t) <-> k = s_thrift /\ t = IContainer).
    { intros [| |a b|a b]; cbn; split; intro H; try tauto; try (destruct H; discriminate).
      - destruct H as [<-|[]]. auto.
      - destruct H as [-> _]. auto. }
    assert (G1 : In k (pkgs go_imports) <-> k = s_math) by (cbn; intuition).
    assert (G2 : (exists a, In a (p_typedefs p) /\ In k (pkgs (generate_typedef a))) <->
      k = s_thrift /\ exists d, In d (p_typedefs p) /\ snd d = IContainer).
    { split.
      - intros (a & Ha & H). unfold generate_typedef in H. destruct (typedef_skipped a); [destruct H|].
        cbn in H. rewrite app_nil_r in H. apply Ty in H as [-> H]. split; [reflexivity|]. eauto.
      - intros (-> & d & Hd & Ed). exists d. split; [exact Hd|]. unfold generate_typedef, typedef_skipped. rewrite Ed. left. reflexivity. }
    assert (G3 : ~ exists a, In a (p_enums p) /\ In k (pkgs (generate_enum a))) by (intros (a & _ & [])).
    assert (G4 : (exists a, In a (p_consts p) /\ In k (pkgs (generate_const a))) <->
      k = s_thrift /\ exists c, In c (p_consts p) /\ pc_ty c = IContainer).
    { split.
      - intros (a & Ha & H). cbn in H. rewrite app_nil_r in H. apply Ty in H as [-> H]. split; [reflexivity|]. eauto.
      - intros (-> & c & Hc & Ec). exists c. split; [exact Hc|]. cbn. rewrite app_nil_r. apply Ty. auto. }
    assert (G5 : In k (pkgs (const_init p)) <-> k = s_thrift /\ exists c, In c (p_consts p) /\ pc_lib c = true).
    { unfold const_init. cbn. rewrite app_nil_r, in_flat_map. split.
      - intros (c & Hc & H). destruct (pc_lib c) eqn:E; [|destruct H]. destruct H as [<-|[]]. split; [reflexivity|]. eauto.
      - intros (-> & c & Hc & E). exists c. split; [exact Hc|]. rewrite E. left. reflexivity. }
    rewrite G1, G2, G4, G5. cbn [pkgs flat_map In]. split.
    - intros [H|[H|[H|[H|H]]]]; try tauto; try contradiction.
      + destruct H as (E & c & Hc & Ec). right. split; [exact E|]. right. eauto.
      + destruct H as (E & c & Hc & Ec). right. split; [exact E|]. right. eauto.
    - intros [H|(E & [H|(c & Hc & [Ec|Ec])])]; [tauto|tauto| |].
      + do 3 right. left. split; [exact E|]. eauto.
      + do 4 right. split; [exact E|]. eauto. }
  rewrite Lib. split.
  - intro N. destruct Hs as [<-|[<-|[<-|[]]]]; [left; reflexivity|destruct N; left; reflexivity|right].
    split; [reflexivity|]. split.
    + intros d Hd E. apply N. right. split; [reflexivity|]. left. eauto.
    + intros c Hc. split; [intro E|destruct (pc_lib c) eqn:E; [|reflexivity]; exfalso]; apply N; right; (split; [reflexivity|]); right; eauto.
  - intros [->|(-> & A & B)] [E|(E & [(d & Hd & Ed)|(c & Hc & Ec)])]; try discriminate E.
    + exact (A d Hd Ed).
    + destruct (B c Hc) as [B1 B2]. destruct Ec; congruence.
Qed.
Print Assumptions C90_unused.
Example C90_unused_ex : let p := Program (lit "m") [] [(lit "id", IBase)] [(lit "color", [lit "RED"])] [] [] [] in
  imports (types_file p) = [lit "fmt"; lit "math"; lit "thrift"] /\ pkgs (types_file p) = [lit "math"].
Proof. split; reflexivity. Qed.

Definition point : bytes * list ity := (lit "point", [IBase; IBase]).
Definition fn_ping : pfn := PFn (lit "ping") [] None [] false.
Definition bad_programs : list program :=
  [Program (lit "m") [lit "shared"] [] [] [] [point] [];
   Program (lit "m") [] [] [(lit "color", [lit "RED"])] [] [] [];
   Program (lit "m") [] [] [] [] [point] [PService (lit "a") None [fn_ping]; PService (lit "b") (Some (lit "m", lit "a")) [fn_ping]];
   Program (lit "m") [] [] [] [] [point] [PService (lit "a") None []]].
Theorem C90_refuted : Forall (fun p => ~ forall f, In f (files p) -> imports_ok (p_module p) f) bad_programs.
Proof.
  repeat (constructor; [rewrite C90_iff; cbn [p_includes p_structs p_services p_module]; intros (H1 & H2 & H3 & _)|]);
    [discriminate H1|congruence| | |constructor].
  - destruct (H3 _ (or_intror (or_introl eq_refl))) as [E _]. discriminate E.
  - destruct (H3 _ (or_introl eq_refl)) as [_ N]. apply N. reflexivity.
Qed.
Print Assumptions C90_refuted.
Definition good_program : program :=
  Program (lit "m") [] [(lit "ids", IContainer)] [(lit "color", [lit "RED"; lit "BLUE"])]
    [PConst (lit "i32") (lit "limit") IBase false; PConst (lit "color") (lit "Best") (INamed (lit "m") (lit "color")) false]
    [point; (lit "shape", [IStruct (lit "m") (lit "point"); INamed (lit "m") (lit "color")])]
    [PService (lit "draw") None
       [fn_ping; PFn (lit "add") [(lit "type", IStruct (lit "m") (lit "shape")); (lit "at", IBase)]
          (Some IContainer) [(lit "full", IStruct (lit "m") (lit "point"))] false];
     PService (lit "admin") None [PFn (lit "stop") [(lit "code", INamed (lit "m") (lit "color"))] None [] true]].
Example C90_ex : forall f, In f (files good_program) -> imports_ok (lit "m") f.
Proof.
  apply (C90_iff good_program). cbn [good_program p_includes p_structs p_services p_module].
  split; [reflexivity|]. split; [discriminate|]. split; [|vm_compute; intuition discriminate].
  intros s [<-|[<-|[]]]; split; discriminate || reflexivity.
Qed.

(** ** C91: names declared once *)

(** A name of lower case letters and digits. *)
Definition plain_char (c : Z) : Prop := 97 <= c <= 122 \/ 48 <= c <= 57.
Definition plain (s : bytes) : Prop :=
  match s with c :: t => 97 <= c <= 122 /\ Forall plain_char t | [] => False end.

(** A string cut before its upper case letters. *)
Fixpoint cut (s : bytes) : bytes * list bytes :=
  match s with
  | [] => ([], [])
  | c :: s' => let '(h, ws) := cut s' in if isupper c then ([], (c :: h) :: ws) else (c :: h, ws)
  end.
Definition capital (w : bytes) : Prop :=
  match w with c :: t => 65 <= c <= 90 /\ no_upper t | [] => False end.
Lemma cut_lower : forall t r, no_upper t -> cut (t ++ r) = (t ++ fst (cut r), snd (cut r)).
Proof.
  induction t as [|c t IH]; intros r H; [cbn; destruct (cut r); reflexivity|].
  inversion H as [|? ? Hc Ht]; subst. cbn [app cut]. rewrite (IH r Ht).
  assert (U : isupper c = false) by (unfold isupper; lia). rewrite U. reflexivity.
Qed.
Lemma cut_words : forall ws, Forall capital ws -> cut (List.concat ws) = ([], ws).
Proof.
  induction ws as [|w ws IH]; intros H; [reflexivity|]. inversion H as [|? ? Hw Hs]; subst.
  destruct w as [|c t]; [destruct Hw|]. destruct Hw as [Hc Ht]. cbn [List.concat app cut].
  rewrite (cut_lower t _ Ht), (IH Hs). cbn [fst snd]. rewrite app_nil_r.
  assert (U : isupper c = true) by (unfold isupper; lia). rewrite U. reflexivity.
Qed.

Lemma plain_no_upper : forall s, Forall plain_char s -> no_upper s.
Proof. intros s H. eapply Forall_impl; [|exact H]. unfold plain_char. intros c Hc. lia. Qed.
Lemma camel_plain_app : forall s r, Forall plain_char s -> camel (s ++ r) = s ++ camel r.
Proof.
  induction s as [|c s IH]; intros r H; [reflexivity|]. inversion H as [|? ? Hc Hs]; subst.
  assert (E : (c =? 95) = false) by (unfold plain_char in Hc; lia).
  specialize (IH r Hs). cbn [app]. destruct (s ++ r) as [|d q] eqn:Q.
  - apply app_eq_nil in Q as [-> ->]. reflexivity.
  - rewrite camel_cons, E. cbn [andb]. rewrite IH. reflexivity.
Qed.
Lemma plain_public : forall s, plain s ->
  exists c t, s = c :: t /\ 97 <= c <= 122 /\ Forall plain_char t /\ forall r, publicize (s ++ r) = c - 32 :: t ++ camel r.
Proof.
  intros [|c t] H; [destruct H|]. destruct H as [Hc Ht]. exists c, t. split; [reflexivity|]. split; [exact Hc|].
  split; [exact Ht|]. intros r. cbn [app publicize]. rewrite (camel_plain_app t r Ht). f_equal.
  unfold toupper, isupper, islower. assert (A : negb ((65 <=? c) && (c <=? 90)) = true) by lia. rewrite A.
  assert (B : (97 <=? c) && (c <=? 122) = true) by lia. rewrite B. reflexivity.
Qed.
Lemma plain_pub : forall s, plain s -> capital (publicize s) /\ ~ In 95 (publicize s).
Proof.
  intros s H. destruct (plain_public s H) as (c & t & E & Hc & Ht & P). specialize (P []). cbn [camel] in P.
  rewrite !app_nil_r in P. rewrite P. split; [split; [lia|apply plain_no_upper, Ht]|].
  intros [C|C]; [lia|]. rewrite Forall_forall in Ht. specialize (Ht _ C). unfold plain_char in Ht. lia.
Qed.
Lemma plain_app : forall s r, plain s -> publicize (s ++ r) = publicize s ++ camel r.
Proof.
  intros s r H. destruct (plain_public s H) as (c & t & E & _ & _ & P).
  pose proof (P []) as P0. cbn [camel] in P0. rewrite !app_nil_r in P0. rewrite P, P0, app_comm_cons. reflexivity.
Qed.
Lemma plain_priv : forall s, plain s -> privatize s = s.
Proof.
  intros [|c t] H; [destruct H|]. destruct H as [Hc Ht]. cbn [privatize].
  pose proof (camel_plain_app t [] Ht) as E. cbn [camel] in E. rewrite !app_nil_r in E. rewrite E. f_equal.
  unfold islower, tolower, isupper. assert (A : (97 <=? c) && (c <=? 122) = true) by lia. rewrite A. reflexivity.
Qed.
Lemma plain_whole : forall s, plain s -> no_upper s /\ ~ In 95 s.
Proof.
  intros [|c t] H; [destruct H|]. destruct H as [Hc Ht]. split.
  - constructor; [lia|apply plain_no_upper, Ht].
  - intros [C|C]; [lia|]. rewrite Forall_forall in Ht. specialize (Ht _ C). unfold plain_char in Ht. lia.
Qed.
Lemma plain_inj : forall a b, plain a -> plain b -> publicize a = publicize b -> a = b.
Proof. intros a b Ha Hb. apply publicize_inj; apply plain_whole; assumption. Qed.

(** What a package-level name is for. *)
Inductive tag : Type :=
| GTy (a : bytes) | GNew (a : bytes) | GFrom (a : bytes)
| GI (s : bytes) | GClient (s : bytes) | GClientF (s : bytes) | GClientP (s : bytes)
| GProc (s : bytes) | GNewProc (s : bytes) | GProcF (s f : bytes)
| GArgs (f : bytes) | GNewArgs (f : bytes) | GRes (f : bytes) | GNewRes (f : bytes)
| GUnder (n : bytes).
Definition w_new := Eval vm_compute in lit "New".
Definition w_i := Eval vm_compute in lit "I".
Definition w_from := Eval vm_compute in lit "From".
Definition w_string := Eval vm_compute in lit "String".
Definition w_client := Eval vm_compute in lit "Client".
Definition w_factory := Eval vm_compute in lit "Factory".
Definition w_protocol := Eval vm_compute in lit "Protocol".
Definition w_processor := Eval vm_compute in lit "Processor".
Definition w_args := Eval vm_compute in lit "Args".
Definition w_result := Eval vm_compute in lit "Result".
Definition words (t : tag) : list bytes :=
  match t with
  | GTy a => [publicize a] | GNew a => [w_new; publicize a] | GFrom a => [w_from; publicize a; w_string]
  | GI s => [w_i; publicize s] | GClient s => [publicize s; w_client]
  | GClientF s => [w_new; publicize s; w_client; w_factory] | GClientP s => [w_new; publicize s; w_client; w_protocol]
  | GProc s => [publicize s; w_processor] | GNewProc s => [w_new; publicize s; w_processor]
  | GProcF s f => [w_processor; publicize f]
  | GArgs f => [publicize f; w_args] | GNewArgs f => [w_new; publicize f; w_args]
  | GRes f => [publicize f; w_result] | GNewRes f => [w_new; publicize f; w_result]
  | GUnder n => []
  end.
Definition lead (t : tag) : bytes := match t with GProcF s _ => s | GUnder n => n | _ => [] end.
Definition render (t : tag) : bytes := lead t ++ List.concat (words t).
Definition tag_ok (t : tag) : Prop :=
  match t with
  | GTy a | GNew a | GFrom a => plain a
  | GI s | GClient s | GClientF s | GClientP s | GProc s | GNewProc s
  | GArgs s | GNewArgs s | GRes s | GNewRes s => plain s /\ publicize s <> w_new /\ publicize s <> w_i
  | GProcF s f => plain s /\ plain f
  | GUnder n => In 95 n
  end.
Definition under (t : tag) : bool := match t with GUnder _ => true | _ => false end.

Ltac lits := repeat match goal with
  | |- Forall _ (_ :: _) => constructor
  | |- Forall _ [] => constructor
  end.
Lemma cap_lit : Forall capital [w_new; w_i; w_from; w_string; w_client; w_factory; w_protocol; w_processor; w_args; w_result] /\
  Forall (fun w => ~ In 95 w) [w_new; w_i; w_from; w_string; w_client; w_factory; w_protocol; w_processor; w_args; w_result].
Proof.
  split.
  - lits; (split; [split; discriminate|unfold no_upper; lits; intros [X Y]; apply Y; reflexivity]).
  - lits; cbn; intuition discriminate.
Qed.
Lemma words_ok : forall t, tag_ok t -> Forall capital (words t) /\ Forall (fun w => ~ In 95 w) (words t).
Proof.
  intros t H. destruct cap_lit as [C U].
  repeat match goal with X : Forall _ (_ :: _) |- _ => inversion X; clear X; subst end.
  destruct t; cbn [tag_ok words] in *; try (destruct H as [H H']);
    try match type of H with plain ?a => pose proof (plain_pub a H) as [? ?] end;
    try match type of H' with plain ?a => pose proof (plain_pub a H') as [? ?] end;
    split; lits; assumption.
Qed.
Lemma render_cut : forall t, tag_ok t -> under t = false -> cut (render t) = (lead t, words t) /\ ~ In 95 (render t).
Proof.
  intros t H U. destruct (words_ok t H) as [C N].
  assert (L : no_upper (lead t) /\ ~ In 95 (lead t)).
  { destruct t; cbn in U |- *; try discriminate; try (split; [constructor|tauto]).
    destruct H as [H _]. exact (plain_whole _ H). }
  unfold render. split.
  - rewrite cut_lower by apply L. rewrite (cut_words _ C). cbn [fst snd]. rewrite app_nil_r. reflexivity.
  - intros I. apply in_app_or in I as [I|I]; [destruct L; contradiction|].
    clear - I N. induction N as [|w ws Hw Hs IH]; [destruct I|]. cbn in I. apply in_app_or in I as [I|I]; auto.
Qed.
Lemma render_inj : forall t u, tag_ok t -> tag_ok u -> render t = render u -> t = u.
Proof.
  intros t u Ht Hu E.
  assert (Uu : forall v, tag_ok v -> under v = true -> In 95 (render v)).
  { intros v Hv Ev. destruct v; cbn in Ev; try discriminate. unfold render. cbn. rewrite app_nil_r. exact Hv. }
  destruct (under t) eqn:Et, (under u) eqn:Eu.
  - destruct t, u; try discriminate. unfold render in E. cbn in E. rewrite !app_nil_r in E. congruence.
  - destruct (render_cut u Hu Eu) as [_ N]. rewrite <- E in N. destruct N. exact (Uu t Ht Et).
  - destruct (render_cut t Ht Et) as [_ N]. rewrite E in N. destruct N. exact (Uu u Hu Eu).
  - destruct (render_cut t Ht Et) as [Ct _], (render_cut u Hu Eu) as [Cu _]. rewrite E in Ct. rewrite Ct in Cu.
    injection Cu; intros Ew El. clear - Ht Hu Ew El Et Eu.
    destruct t, u; cbn [tag_ok words lead under] in *; try discriminate;
      repeat match goal with H : _ /\ _ |- _ => destruct H end;
      injection Ew; intros; subst;
      try (exfalso; congruence);
      try (f_equal; apply plain_inj; assumption).
    all: match goal with H : plain [] |- _ => destruct H end.
Qed.

(** The names of a package, each with what it is for, in the order of the files. *)
Definition declared_types (p : program) : list bytes :=
  map fst (filter (fun d => negb (typedef_skipped d)) (p_typedefs p)) ++ map fst (p_enums p) ++ map fst (p_structs p).
Definition functions (p : program) : list bytes := flat_map (fun s => map pf_name (ps_fns s)) (p_services p).
Definition underscored (p : program) : list bytes :=
  flat_map (fun e => map (fun c => publicize (fst e) ++ lit "_" ++ c) (snd e)) (p_enums p) ++ map const_goname (p_consts p).
Definition svc_tags (s : pservice) : list tag :=
  let n := ps_name s in
  [GI n; GClient n; GClientF n; GClientP n; GProc n; GNewProc n] ++
  map (fun f => GProcF n (pf_name f)) (ps_fns s) ++
  flat_map (fun f => [GArgs (pf_name f); GNewArgs (pf_name f); GRes (pf_name f); GNewRes (pf_name f)]) (ps_fns s).
Definition tags (p : program) : list tag :=
  map (fun d => GTy (fst d)) (filter (fun d => negb (typedef_skipped d)) (p_typedefs p)) ++
  flat_map (fun e => GTy (fst e) :: map (fun c => GUnder (publicize (fst e) ++ lit "_" ++ c)) (snd e) ++ [GFrom (fst e)])
    (p_enums p) ++
  map (fun c => GUnder (const_goname c)) (p_consts p) ++
  flat_map (fun s => [GTy (fst s); GNew (fst s)]) (p_structs p) ++
  flat_map svc_tags (p_services p).

(** All names in lower case letters and digits; services and functions not called new or i. *)
Definition plain_names (p : program) : Prop :=
  Forall plain (declared_types p) /\
  Forall (fun s => plain s /\ s <> lit "new" /\ s <> lit "i") (map ps_name (p_services p) ++ functions p).

Lemma in_functions : forall p s f, In s (p_services p) -> In f (ps_fns s) -> In (pf_name f) (functions p).
Proof. intros p s f Hs Hf. apply in_flat_map. exists s. split; [exact Hs|]. apply in_map, Hf. Qed.
Lemma not_new : forall s, plain s -> s <> lit "new" /\ s <> lit "i" -> publicize s <> w_new /\ publicize s <> w_i.
Proof.
  intros s H [N I]. split; intros E.
  - apply N. apply plain_inj; [exact H| |exact E]. change (lit "new") with [110; 101; 119].
    split; [lia|repeat constructor; unfold plain_char; lia].
  - apply I. apply plain_inj; [exact H| |exact E]. change (lit "i") with [105]. split; [lia|constructor].
Qed.
Lemma tags_ok : forall p, plain_names p -> Forall tag_ok (tags p).
Proof.
  intros p [H1 H2]. rewrite Forall_forall in H1, H2.
  assert (Sv : forall n, In n (map ps_name (p_services p) ++ functions p) -> plain n /\ publicize n <> w_new /\ publicize n <> w_i).
  { intros n Hn. destruct (H2 n Hn) as [A B]. split; [exact A|]. apply not_new; assumption. }
  apply Forall_forall. intros t Ht. unfold tags in Ht. unfold declared_types in H1.
  apply in_app_or in Ht as [Ht|Ht].
  { apply in_map_iff in Ht as (d & <- & Hd). apply H1, in_or_app. left. apply in_map, Hd. }
  apply in_app_or in Ht as [Ht|Ht].
  { apply in_flat_map in Ht as (e & He & Ht).
    assert (Pe : plain (fst e)) by (apply H1, in_or_app; right; apply in_or_app; left; apply in_map, He).
    destruct Ht as [<-|Ht]; [exact Pe|]. apply in_app_or in Ht as [Ht|[<-|[]]]; [|exact Pe].
    apply in_map_iff in Ht as (c & <- & _). cbn [tag_ok]. apply in_or_app. right. left. reflexivity. }
  apply in_app_or in Ht as [Ht|Ht].
  { apply in_map_iff in Ht as (c & <- & _). cbn [tag_ok]. apply in_or_app. right. left. reflexivity. }
  apply in_app_or in Ht as [Ht|Ht].
  { apply in_flat_map in Ht as (s & Hs & Ht).
    assert (Ps : plain (fst s)) by (apply H1, in_or_app; right; apply in_or_app; right; apply in_map, Hs).
    destruct Ht as [<-|[<-|[]]]; exact Ps. }
  apply in_flat_map in Ht as (s & Hs & Ht).
  assert (Ps := Sv (ps_name s) (in_or_app _ _ _ (or_introl (in_map ps_name _ _ Hs)))).
  assert (Pf : forall f, In f (ps_fns s) -> plain (pf_name f) /\ publicize (pf_name f) <> w_new /\ publicize (pf_name f) <> w_i).
  { intros f Hf. apply Sv, in_or_app. right. exact (in_functions p s f Hs Hf). }
  unfold svc_tags in Ht. apply in_app_or in Ht as [Ht|Ht].
  { destruct Ht as [<-|[<-|[<-|[<-|[<-|[<-|[]]]]]]]; exact Ps. }
  apply in_app_or in Ht as [Ht|Ht].
  { apply in_map_iff in Ht as (f & <- & Hf). split; [apply Ps|apply (Pf f Hf)]. }
  apply in_flat_map in Ht as (f & Hf & Ht). destruct Ht as [<-|[<-|[<-|[<-|[]]]]]; exact (Pf f Hf).
Qed.

Lemma names_flat : forall A (g : A -> list item) l, names (flat_map g l) = flat_map (fun a => names (g a)) l.
Proof. intros A g l. induction l as [|a l IH]; [reflexivity|]. cbn [flat_map]. rewrite names_app, IH. reflexivity. Qed.
Lemma map_flat : forall A B C (f : B -> C) (g : A -> list B) l, map f (flat_map g l) = flat_map (fun a => map f (g a)) l.
Proof. intros A B C f g l. induction l as [|a l IH]; [reflexivity|]. cbn [flat_map]. rewrite map_app, IH. reflexivity. Qed.
Lemma flat_map_in_ext : forall A B (f g : A -> list B) l, (forall a, In a l -> f a = g a) -> flat_map f l = flat_map g l.
Proof. intros A B f g l H. induction l as [|a l IH]; [reflexivity|]. cbn. rewrite (H a (or_introl eq_refl)), IH; [reflexivity|]. intros b Hb. apply H. right. exact Hb. Qed.
Lemma flat_map_single : forall A B (f : A -> B) l, flat_map (fun a => [f a]) l = map f l.
Proof. intros A B f l. induction l as [|a l IH]; [reflexivity|]. cbn. rewrite IH. reflexivity. Qed.
Lemma flat_map_none : forall A B (l : list A), flat_map (fun _ => @nil B) l = [].
Proof. intros A B l. induction l as [|a l IH]; [reflexivity|exact IH]. Qed.

Lemma service_names : forall s, plain (ps_name s) -> (forall f, In f (ps_fns s) -> plain (pf_name f)) ->
  names (service_file s) = map render (svc_tags s).
Proof.
  intros s Hs Hf. unfold service_file. rewrite !names_app.
  replace (names (match ps_extends s with Some (m, _) => [Import m] | None => [] end)) with (@nil bytes)
    by (destruct (ps_extends s) as [[m n]|]; reflexivity).
  unfold svc_tags. rewrite !map_app, map_map, map_flat.
  unfold generate_client, generate_server, generate_interface. cbn [names flat_map app].
  change (flat_map (fun i => match i with Import _ => [] | Decl n _ _ => n end)) with names.
  rewrite !names_flat. cbn [map]. unfold render at 1 2 3 4 5 6. cbn [lead words List.concat].
  rewrite ?app_nil_r. cbn [app names flat_map client_method].
  rewrite flat_map_none. change (names go_imports) with (@nil bytes). cbn [app].
  unfold client_type, processor_type. rewrite <- !app_assoc.
  change (lit "I") with w_i. change (lit "New") with w_new. change (lit "Client") with w_client.
  change (lit "Factory") with w_factory. change (lit "Protocol") with w_protocol. change (lit "Processor") with w_processor.
  do 6 f_equal. f_equal.
  - rewrite <- flat_map_single. apply flat_map_in_ext. intros f Hi. unfold render. cbn. rewrite app_nil_r, (plain_priv _ Hs).
    reflexivity.
  - apply flat_map_in_ext. intros f Hi. unfold fn_helpers, generate_struct, render. cbn [app names flat_map fst lead words List.concat].
    rewrite !(plain_app _ _ (Hf f Hi)), !app_nil_r. reflexivity.
Qed.
Lemma package_tags : forall p, plain_names p -> package_names p = map render (tags p).
Proof.
  intros p [_ H2]. rewrite Forall_forall in H2. unfold package_names, files, tags. cbn [flat_map]. unfold types_file.
  rewrite !names_app, !map_app, !names_flat, !map_map, !map_flat.
  replace (names (render_includes p)) with (@nil bytes).
  2: { unfold render_includes. induction (p_includes p) as [|m l IH]; [reflexivity|exact IH]. }
  change (names go_imports) with (@nil bytes). change (names (const_init p)) with (@nil bytes). cbn [app]. rewrite app_nil_r, <- !app_assoc.
  f_equal; [|f_equal; [|f_equal; [|f_equal]]].
  - induction (p_typedefs p) as [|d l IH]; [reflexivity|]. cbn [flat_map filter]. rewrite IH. unfold generate_typedef.
    destruct (typedef_skipped d); cbn [negb map names flat_map app]; [reflexivity|].
    f_equal. unfold render. cbn. rewrite app_nil_r. reflexivity.
  - apply flat_map_in_ext. intros e _. unfold generate_enum. cbn [names flat_map]. rewrite app_nil_r. cbn [map].
    rewrite map_app, map_map. f_equal; [unfold render; cbn; rewrite app_nil_r; reflexivity|]. f_equal.
    apply map_ext. intros c. unfold render. cbn [lead words List.concat]. rewrite app_nil_r. reflexivity.
  - rewrite <- flat_map_single. apply flat_map_in_ext. intros c _. unfold render. cbn [lead words List.concat names flat_map generate_const].
    rewrite !app_nil_r. reflexivity.
  - apply flat_map_in_ext. intros s _. unfold render. cbn. rewrite !app_nil_r. reflexivity.
  - rewrite (flat_map_concat_map _ (map service_file _)), map_map, <- flat_map_concat_map.
    apply flat_map_in_ext. intros s Hs. apply service_names.
    + apply H2, in_or_app. left. apply in_map, Hs.
    + intros f Hf. apply H2, in_or_app. right. exact (in_functions p s f Hs Hf).
Qed.

Definition kind (t : tag) : Z :=
  match t with
  | GTy _ => 0 | GNew _ => 1 | GFrom _ => 2 | GI _ => 3 | GClient _ => 4 | GClientF _ => 5 | GClientP _ => 6
  | GProc _ => 7 | GNewProc _ => 8 | GProcF _ _ => 9 | GArgs _ => 10 | GNewArgs _ => 11 | GRes _ => 12 | GNewRes _ => 13
  | GUnder _ => 14
  end.
Lemma nodup_kinds : forall l, (forall k, 0 <= k <= 14 -> NoDup (filter (fun t => kind t =? k) l)) -> NoDup l.
Proof.
  induction l as [|t l IH]; intros H; [constructor|]. constructor.
  - intros I. assert (K : 0 <= kind t <= 14) by (destruct t; cbn; lia). specialize (H (kind t) K). cbn in H.
    rewrite Z.eqb_refl in H. inversion H as [|? ? N _]; subst. apply N. apply filter_In. split; [exact I|apply Z.eqb_refl].
  - apply IH. intros k Hk. specialize (H k Hk). cbn in H. destruct (kind t =? k); [inversion H; assumption|exact H].
Qed.
Lemma filter_flat : forall A B (f : B -> bool) (g : A -> list B) l, filter f (flat_map g l) = flat_map (fun a => filter f (g a)) l.
Proof. intros A B f g l. induction l as [|a l IH]; [reflexivity|]. cbn. rewrite filter_app, IH. reflexivity. Qed.
Lemma filter_map_all : forall A B (f : B -> bool) (g : A -> B) l b, (forall a, f (g a) = b) ->
  filter f (map g l) = if b then map g l else [].
Proof. intros A B f g l b H. induction l as [|a l IH]; [destruct b; reflexivity|]. cbn. rewrite H, IH. destruct b; reflexivity. Qed.
Lemma nodup_inj_map : forall A B (f : A -> B) l, (forall a b, In a l -> In b l -> f a = f b -> a = b) -> (NoDup (map f l) <-> NoDup l).
Proof.
  intros A B f l H. split; [apply NoDup_map_inv|]. intros N. induction N as [|a l Ni N IH]; [constructor|]. cbn. constructor.
  - intros I. apply in_map_iff in I as (b & E & Hb). apply Ni. rewrite (H a b); auto; [left; reflexivity|right; exact Hb].
  - apply IH. intros b c Hb Hc. apply H; right; assumption.
Qed.

(** The tags of one kind. *)
Lemma filter_tags : forall p k, filter (fun t => kind t =? k) (tags p) =
  (if 0 =? k then map GTy (map fst (filter (fun d => negb (typedef_skipped d)) (p_typedefs p))) else []) ++
  flat_map (fun e => (if 0 =? k then [GTy (fst e)] else []) ++
     (if 14 =? k then map (fun c => GUnder (publicize (fst e) ++ lit "_" ++ c)) (snd e) else []) ++
     (if 2 =? k then [GFrom (fst e)] else [])) (p_enums p) ++
  (if 14 =? k then map GUnder (map const_goname (p_consts p)) else []) ++
  flat_map (fun s => (if 0 =? k then [GTy (fst s)] else []) ++ (if 1 =? k then [GNew (fst s)] else [])) (p_structs p) ++
  flat_map (fun s => filter (fun t => kind t =? k) (svc_tags s)) (p_services p).
Proof.
  intros p k. unfold tags. rewrite !filter_app, !filter_flat.
  rewrite (filter_map_all _ _ _ (fun d => GTy (fst d)) _ (0 =? k)) by reflexivity.
  rewrite (filter_map_all _ _ _ (fun c => GUnder (const_goname c)) _ (14 =? k)) by reflexivity.
  rewrite !map_map. f_equal. f_equal.
  - apply flat_map_in_ext. intros e _. cbn [filter kind]. rewrite filter_app, (filter_map_all _ _ _ _ _ (14 =? k)) by reflexivity.
    cbn [filter kind]. destruct (0 =? k); reflexivity.
  - f_equal. f_equal. apply flat_map_in_ext. intros s _. cbn [filter kind]. destruct (0 =? k), (1 =? k); reflexivity.
Qed.
Lemma filter_svc : forall s k, filter (fun t => kind t =? k) (svc_tags s) =
  (if 3 =? k then [GI (ps_name s)] else []) ++ (if 4 =? k then [GClient (ps_name s)] else []) ++
  (if 5 =? k then [GClientF (ps_name s)] else []) ++ (if 6 =? k then [GClientP (ps_name s)] else []) ++
  (if 7 =? k then [GProc (ps_name s)] else []) ++ (if 8 =? k then [GNewProc (ps_name s)] else []) ++
  (if 9 =? k then map (fun f => GProcF (ps_name s) (pf_name f)) (ps_fns s) else []) ++
  (if 10 =? k then map (fun f => GArgs (pf_name f)) (ps_fns s) else []) ++
  (if 11 =? k then map (fun f => GNewArgs (pf_name f)) (ps_fns s) else []) ++
  (if 12 =? k then map (fun f => GRes (pf_name f)) (ps_fns s) else []) ++
  (if 13 =? k then map (fun f => GNewRes (pf_name f)) (ps_fns s) else []).
Proof.
  intros s k. unfold svc_tags. rewrite !filter_app, filter_flat, (filter_map_all _ _ _ _ _ (9 =? k)) by reflexivity.
  match goal with |- ?a ++ ?b ++ ?c = ?a1 ++ ?a2 ++ ?a3 ++ ?a4 ++ ?a5 ++ ?a6 ++ ?b' ++ ?c' =>
    transitivity ((a1 ++ a2 ++ a3 ++ a4 ++ a5 ++ a6) ++ b' ++ c'); [|rewrite <- !app_assoc; reflexivity] end.
  f_equal; [|f_equal].
  - cbn [filter kind]. destruct (3 =? k), (4 =? k), (5 =? k), (6 =? k), (7 =? k), (8 =? k); reflexivity.
  - cbn [filter kind]. destruct (10 =? k) eqn:E10, (11 =? k) eqn:E11, (12 =? k) eqn:E12, (13 =? k) eqn:E13; try lia;
      cbn [app]; rewrite ?app_nil_r, ?flat_map_single, ?flat_map_none; reflexivity.
Qed.
Lemma filter_svcs : forall k l, flat_map (fun s => filter (fun t => kind t =? k) (svc_tags s)) l = flat_map (fun s =>
  (if 3 =? k then [GI (ps_name s)] else []) ++ (if 4 =? k then [GClient (ps_name s)] else []) ++
  (if 5 =? k then [GClientF (ps_name s)] else []) ++ (if 6 =? k then [GClientP (ps_name s)] else []) ++
  (if 7 =? k then [GProc (ps_name s)] else []) ++ (if 8 =? k then [GNewProc (ps_name s)] else []) ++
  (if 9 =? k then map (fun f => GProcF (ps_name s) (pf_name f)) (ps_fns s) else []) ++
  (if 10 =? k then map (fun f => GArgs (pf_name f)) (ps_fns s) else []) ++
  (if 11 =? k then map (fun f => GNewArgs (pf_name f)) (ps_fns s) else []) ++
  (if 12 =? k then map (fun f => GRes (pf_name f)) (ps_fns s) else []) ++
  (if 13 =? k then map (fun f => GNewRes (pf_name f)) (ps_fns s) else [])) l.
Proof. intros k l. apply flat_map_in_ext. intros s _. apply filter_svc. Qed.
Lemma flat_map_nil_r : forall A B (g : A -> list B) l, flat_map (fun a => g a ++ []) l = flat_map g l.
Proof. intros. apply flat_map_in_ext. intros. apply app_nil_r. Qed.
Ltac one_kind := rewrite filter_tags, filter_svcs; cbn [Z.eqb Pos.eqb app];
  rewrite ?flat_map_nil_r, ?flat_map_none, ?flat_map_single; cbn [app]; rewrite ?app_nil_r.

(** Then the package declares every name once exactly when its types differ, its services differ,
    the functions of all its services differ, and the constants and the values of its enums do. *)
Theorem C91_iff : forall p, plain_names p ->
  (NoDup (package_names p) <->
   NoDup (declared_types p) /\ NoDup (map ps_name (p_services p)) /\ NoDup (functions p) /\ NoDup (underscored p)).
Proof.
  intros p H. rewrite (package_tags p H). rewrite nodup_inj_map.
  2: { pose proof (tags_ok p H) as K. rewrite Forall_forall in K. intros a b Ha Hb. apply render_inj; auto. }
  assert (K0 : filter (fun t => kind t =? 0) (tags p) = map GTy (declared_types p)).
  { one_kind. unfold declared_types. rewrite !map_app, !map_map. reflexivity. }
  assert (K14 : filter (fun t => kind t =? 14) (tags p) = map GUnder (underscored p)).
  { one_kind. unfold underscored. rewrite !map_app, !map_flat, map_map. f_equal; [|rewrite map_map; reflexivity].
    apply flat_map_in_ext. intros e _. rewrite map_map. reflexivity. }
  assert (Kf : forall (G : bytes -> tag), flat_map (fun s => map (fun f => G (pf_name f)) (ps_fns s)) (p_services p) = map G (functions p)).
  { intros G. unfold functions. rewrite map_flat. apply flat_map_in_ext. intros s _. rewrite map_map. reflexivity. }
  split.
  - intros N.
    assert (Nk : forall k, NoDup (filter (fun t => kind t =? k) (tags p))) by (intros k; apply NoDup_filter, N).
    split; [specialize (Nk 0); rewrite K0 in Nk; exact (NoDup_map_inv _ _ Nk)|].
    split; [|split; [|specialize (Nk 14); rewrite K14 in Nk; exact (NoDup_map_inv _ _ Nk)]].
    + specialize (Nk 3). revert Nk. one_kind. rewrite <- (map_map ps_name GI). apply NoDup_map_inv.
    + specialize (Nk 10). revert Nk. one_kind. rewrite (Kf GArgs). apply NoDup_map_inv.
  - intros (Nt & Ns & Nf & Nu). apply nodup_kinds. intros k Hk.
    assert (Ne : NoDup (map fst (p_enums p)) /\ NoDup (map fst (p_structs p))).
    { unfold declared_types in Nt. apply nodup_app in Nt as (_ & Nt & _). apply nodup_app in Nt as (A & B & _). auto. }
    assert (M : forall (G : bytes -> tag) l, (forall a b, G a = G b -> a = b) -> NoDup l -> NoDup (map G l)).
    { intros G l HG Nl. apply nodup_inj_map; [|exact Nl]. intros a b _ _. apply HG. }
    assert (C : In k [0;1;2;3;4;5;6;7;8;9;10;11;12;13;14]) by (cbn; lia).
    cbn [In] in C. repeat destruct C as [<-|C]; [rewrite K0; apply M; [congruence|exact Nt]|..|destruct C].
    14: rewrite K14; apply M; [congruence|exact Nu].
    all: one_kind.
    + rewrite <- (map_map fst GNew). apply M; [congruence|apply Ne].
    + rewrite <- (map_map fst GFrom). apply M; [congruence|apply Ne].
    + rewrite <- (map_map ps_name GI). apply M; [congruence|exact Ns].
    + rewrite <- (map_map ps_name GClient). apply M; [congruence|exact Ns].
    + rewrite <- (map_map ps_name GClientF). apply M; [congruence|exact Ns].
    + rewrite <- (map_map ps_name GClientP). apply M; [congruence|exact Ns].
    + rewrite <- (map_map ps_name GProc). apply M; [congruence|exact Ns].
    + rewrite <- (map_map ps_name GNewProc). apply M; [congruence|exact Ns].
    + apply (NoDup_map_inv (fun t => match t with GProcF _ f => f | _ => [] end)). rewrite map_flat.
      erewrite flat_map_in_ext; [exact Nf|]. intros s _. rewrite map_map. reflexivity.
    + rewrite (Kf GArgs). apply M; [congruence|exact Nf].
    + rewrite (Kf GNewArgs). apply M; [congruence|exact Nf].
    + rewrite (Kf GRes). apply M; [congruence|exact Nf].
    + rewrite (Kf GNewRes). apply M; [congruence|exact Nf].
Qed.
Print Assumptions C91_iff.

(** Whatever the names: two services of a program that have functions of one name, and a constant
    that has the type of an enum and is named like one of its values, are declared twice. *)
Lemma not_nodup : forall (a b c : list bytes) x, In x a -> In x b -> ~ NoDup (a ++ b ++ c).
Proof.
  intros a b c x Ha Hb N. apply nodup_app in N as (_ & _ & D). apply (D x Ha). apply in_or_app. left. exact Hb.
Qed.
Theorem C91_methods_refuted : forall p l s m s' r f f',
  p_services p = l ++ s :: m ++ s' :: r -> In f (ps_fns s) -> In f' (ps_fns s') -> pf_name f = pf_name f' ->
  ~ NoDup (package_names p).
Proof.
  intros p l s m s' r f f' E Hf Hf' En N. unfold package_names, files in N. cbn [flat_map] in N. rewrite E in N.
  rewrite map_app, flat_map_app in N. cbn [map flat_map] in N. rewrite map_app, flat_map_app in N. cbn [map flat_map] in N.
  apply nodup_app in N as (_ & N & _). apply nodup_app in N as (_ & N & _). apply nodup_app in N as (_ & _ & D).
  assert (A : forall g t, In g (ps_fns t) -> In (publicize (pf_name g ++ lit "_args")) (names (service_file t))).
  { intros g t Hg. unfold service_file. rewrite !names_app. do 5 (apply in_or_app; right). rewrite names_flat.
    apply in_flat_map. exists g. split; [exact Hg|]. left. reflexivity. }
  apply (D _ (A f s Hf)). rewrite En. apply in_or_app. right. apply in_or_app. left. apply A, Hf'.
Qed.
Print Assumptions C91_methods_refuted.
Theorem C91_const_refuted : forall p e c v, In e (p_enums p) -> In v (snd e) -> In c (p_consts p) ->
  pc_tname c = fst e -> publicize (pc_name c) = v -> ~ NoDup (package_names p).
Proof.
  intros p e c v He Hv Hc Et Ev N. unfold package_names, files in N. cbn [flat_map] in N.
  apply nodup_app in N as (N & _ & _). unfold types_file in N. rewrite !names_app in N.
  do 3 apply nodup_app in N as (_ & N & _). apply nodup_app in N as (_ & _ & D).
  apply (D (publicize (fst e) ++ lit "_" ++ v)).
  - rewrite names_flat. apply in_flat_map. exists e. split; [exact He|]. right. rewrite app_nil_r. apply in_or_app. left.
    apply (in_map (fun c => publicize (fst e) ++ lit "_" ++ c)), Hv.
  - apply in_or_app. left. rewrite names_flat. apply in_flat_map. exists c. split; [exact Hc|]. left.
    unfold const_goname. rewrite Et, Ev. reflexivity.
Qed.
Print Assumptions C91_const_refuted.

Lemma good_plain : plain_names good_program.
Proof.
  assert (P : forall c t, islower c = true -> forallb (fun d => islower d || ((48 <=? d) && (d <=? 57))) t = true -> plain (c :: t)).
  { intros c t Hc Ht. unfold islower in *. split; [lia|]. apply Forall_forall. intros d Hd. rewrite forallb_forall in Ht.
    specialize (Ht d Hd). unfold plain_char. lia. }
  assert (Q : forall l, forallb (fun s => match s with c :: t => islower c && forallb (fun d => islower d || ((48 <=? d) && (d <=? 57))) t | [] => false end) l = true -> Forall plain l).
  { intros l Hl. apply Forall_forall. intros s Hs. rewrite forallb_forall in Hl. specialize (Hl s Hs).
    destruct s as [|c t]; [discriminate|]. apply andb_true_iff in Hl as [A B]. apply P; assumption. }
  split; [apply Q; vm_compute; reflexivity|].
  assert (A : Forall plain (map ps_name (p_services good_program) ++ functions good_program)) by (apply Q; vm_compute; reflexivity).
  rewrite Forall_forall in A. apply Forall_forall. intros s Hs. split; [apply A, Hs|].
  revert Hs. vm_compute. intros [<-|[<-|[<-|[<-|[<-|[]]]]]]; split; discriminate.
Qed.
Example C91_ex : NoDup (package_names good_program).
Proof.
  apply (C91_iff _ good_plain). split; [|split; [|split]]; vm_compute; repeat (constructor; [cbn; intuition discriminate|]); constructor.
Qed.

(** ** C92: the signatures of a client's methods *)

Lemma func_ok_split : forall g W F, Permutation (vars g) (W ++ F) -> Forall ident W -> Forall ident F -> NoDup F ->
  (forall u, In u (gf_free g) -> ~ In u F) ->
  (func_ok g <-> NoDup W /\ forall v, In v W -> ~ In v F /\ ~ In v (gf_free g)).
Proof.
  intros g W F P Iw If Nf Df. unfold func_ok. split.
  - intros (_ & N & D). apply (Permutation_NoDup P), nodup_app in N as (N1 & _ & N2). split; [exact N1|].
    intros v Hv. split; [apply N2, Hv|]. intros C. apply (D v C). apply (Permutation_in _ (Permutation_sym P)).
    apply in_or_app. left. exact Hv.
  - intros [N D]. split; [|split].
    + apply Forall_forall. intros v Hv. apply (Permutation_in _ P), in_app_or in Hv. rewrite Forall_forall in Iw, If.
      destruct Hv; auto.
    + apply (Permutation_NoDup (Permutation_sym P)). apply nodup_app. split; [exact N|]. split; [exact Nf|].
      intros v Hv. apply D, Hv.
    + intros u Hu C. apply (Permutation_in _ P), in_app_or in C as [C|C]; [|exact (Df u Hu C)]. destruct (D u C) as [_ Nu]. contradiction.
Qed.
Lemma vars_perm : forall (p : bytes) A R X e L, Permutation (p :: A ++ (R ++ X ++ [e]) ++ L) ((A ++ X) ++ p :: R ++ e :: L).
Proof.
  intros p A R X e L. etransitivity; [|apply Permutation_middle]. constructor. rewrite <- !app_assoc. apply Permutation_app_head.
  cbn [app]. rewrite !app_assoc. apply Permutation_app_tail. apply Permutation_app_comm.
Qed.

(** A reserved word has no digit and does not begin with n. *)
Lemma reserved_letters : forall w, reserved w -> Forall (fun c => 97 <= c <= 122) w /\ hd 0 w <> 110.
Proof.
  intros w R. unfold reserved, go_keywords in R. cbn [map In] in R.
  repeat (destruct R as [<-|R]; [split; [vm_compute; lits; split; discriminate|vm_compute; discriminate]|]). destruct R.
Qed.
(** The argument named like [w] is the one the IDL names [w]. *)
Lemma arg_name_eq : forall s w, ~ In 95 w \/ last w 0 <> 49 -> ~ reserved (map tolower w) -> (arg_name s = w <-> s = w).
Proof.
  intros s w E R. unfold arg_name. split.
  - intros H. destruct (goname_cases s) as [[G _]|[G _]]; [congruence|]. exfalso. rewrite G in H. subst w.
    change (lit "_a1") with [95; 97; 49] in E. destruct E as [E|E].
    + apply E. apply in_or_app. right. left. reflexivity.
    + apply E. change [95; 97; 49] with ([95; 97] ++ [49]). rewrite app_assoc. apply last_last.
  - intros ->. destruct (goname_cases w) as [[G _]|[_ G]]; [exact G|contradiction].
Qed.
Lemma tmp_facts : forall w n, ident w -> ~ In 95 w -> 0 <= n < 2 ^ 63 ->
  ident (tmp w n) /\ ~ In 95 (tmp w n) /\ ~ reserved (map tolower (tmp w n)).
Proof.
  intros w n Iw Nw Hn. unfold tmp. destruct (format_head n Hn) as (c & t & E & C & T).
  split; [apply ident_app; [exact Iw|apply digits_chars, Hn]|]. rewrite E. split.
  - intros I. apply in_app_or in I as [I|[I|I]]; [contradiction|lia|]. rewrite Forall_forall in T. specialize (T _ I). cbn in T. lia.
  - intros R. destruct (reserved_letters _ R) as [L _]. rewrite map_app in L. apply Forall_app in L as [_ L].
    inversion L as [|? ? Lc _]; subst. cbn in Lc. unfold tolower, isupper in Lc. destruct ((65 <=? c) && (c <=? 90)) eqn:X; lia.
Qed.

(** The IDL names an argument, and a declared exception, must not have; [na], [nr], [nx] are the
    numbers that the variables for arguments, return value and result got. *)
Definition ret_names (f : pfn) (l : list bytes) : list bytes := match pf_ret f with Some _ => l | None => [] end.
Definition arg_taken (f : pfn) (na nr : Z) : list bytes :=
  map lit ["p"; "err"; "nil"; "thrift"; "oprot"]%string ++
  [lit "args" ++ FormatInt na; lit "New" ++ publicize (privatize (pf_name f) ++ lit "Args")] ++
  ret_names f [lit "retval" ++ FormatInt nr].
Definition exc_taken (f : pfn) (nr nx : Z) : list bytes :=
  map lit ["p"; "err"; "nil"; "thrift"; "iprot"; "mTypeId"; "seqId"]%string ++
  [lit "result" ++ FormatInt nx; lit "New" ++ publicize (privatize (pf_name f) ++ lit "Result")] ++
  ret_names f [lit "value"; lit "retval" ++ FormatInt nr].

Lemma camel_after : forall s c r, c <> 95 -> exists pre, camel (s ++ c :: r) = pre ++ camel r.
Proof.
  intros s c r Hc. pattern s. apply camel_ind; clear s.
  - exists [c]. cbn [app]. destruct r as [|d r]; [reflexivity|]. rewrite camel_cons. replace (c =? 95) with false by lia. reflexivity.
  - intros a. cbn [app]. rewrite camel_cons. destruct ((a =? 95) && isalpha c); [exists [toupper c]; reflexivity|].
    exists [a; c]. destruct r as [|d r]; [reflexivity|]. rewrite camel_cons. replace (c =? 95) with false by lia. reflexivity.
  - intros a d s E [pre IH]. cbn [app] in *. rewrite camel_cons, E, IH. exists (toupper d :: pre). reflexivity.
  - intros a d s E [pre IH]. cbn [app] in *. rewrite camel_cons, E, IH. exists (a :: pre). reflexivity.
Qed.
Lemma new_facts : forall s c r, ident s -> c <> 95 -> camel r = r -> Forall id_char (c :: r) -> last r 0 <> 49 -> r <> [] ->
  ident (lit "New" ++ publicize (privatize s ++ c :: r)) /\ last (lit "New" ++ publicize (privatize s ++ c :: r)) 0 <> 49 /\
  ~ reserved (map tolower (lit "New" ++ publicize (privatize s ++ c :: r))).
Proof.
  intros s c r Is Hc Er Ir Lr Nr. destruct s as [|a s]; [destruct Is|]. destruct Is as [Ia Is].
  split; [|split].
  - apply ident_app; [idt|]. apply ident_chars, publicize_ident. cbn [privatize app]. split.
    + clear - Ia. chars. destruct (negb ((97 <=? a) && (a <=? 122))) eqn:U; [|lia]. destruct ((65 <=? a) && (a <=? 90)) eqn:L; lia.
    + apply Forall_app. split; [apply camel_chars, Is|exact Ir].
  - cbn [privatize app publicize]. destruct (camel_after (camel s) c r Hc) as (pre & ->). rewrite Er.
    rewrite (app_removelast_last 0 Nr). change (lit "New") with [78; 101; 119].
    match goal with |- last ([78; 101; 119] ++ ?x :: pre ++ ?y ++ [?z]) 0 <> 49 =>
      replace ([78; 101; 119] ++ x :: pre ++ y ++ [z]) with (([78; 101; 119] ++ x :: pre ++ y) ++ [z])
        by (rewrite <- app_assoc; cbn [app]; rewrite <- app_assoc; reflexivity) end.
    rewrite last_last. exact Lr.
  - intros R. destruct (reserved_letters _ R) as [_ H]. apply H. reflexivity.
Qed.

Lemma lit_facts : Forall (fun w => ident w /\ ~ In 95 w /\ ~ reserved (map tolower w))
  (map lit ["p"; "err"; "nil"; "thrift"; "oprot"; "iprot"; "mTypeId"; "seqId"; "value"]%string).
Proof.
  cbn [map]. lits; (split; [idt|split; [vm_compute; intuition discriminate|]]); vm_compute; intuition discriminate.
Qed.

(** The methods of a client for a function are valid exactly when the Go names of its arguments
    and exceptions all differ, and none has, in the IDL, one of these names. *)
Theorem C92_iff : forall f na nr nx, ident (pf_name f) ->
  Forall (fun a => ident (fst a)) (pf_args f ++ pf_exc f) ->
  0 <= na < 2 ^ 63 -> 0 <= nr < 2 ^ 63 -> 0 <= nx < 2 ^ 63 ->
  (func_ok (call_method f nr) /\ func_ok (send_method f na) /\ func_ok (recv_method f nx) <->
   NoDup (map arg_name (map fst (pf_args f) ++ map fst (pf_exc f))) /\
   (forall a, In a (map fst (pf_args f)) -> ~ In a (arg_taken f na nr)) /\
   (forall e, In e (map fst (pf_exc f)) -> ~ In e (exc_taken f nr nx))).
Proof.
  intros f na nr nx If Ia Hna Hnr Hnx.
  assert (Iw : Forall ident (arg_params f ++ exc_results f)).
  { unfold arg_params, exc_results. rewrite <- map_app. apply Forall_map. eapply Forall_impl; [|exact Ia].
    intros a. apply C53_valid. }
  pose proof (proj1 (Forall_app _ _ _) Iw) as [Iwa Iwe].
  pose proof lit_facts as Lf. cbn [map] in Lf.
  repeat match goal with X : Forall _ (_ :: _) |- _ => inversion X; clear X; subst end.
  repeat match goal with X : _ /\ _ /\ _ |- _ => destruct X as (? & ? & ?) end.
  assert (Ta : ident (tmp (lit "args") na) /\ ~ In 95 (tmp (lit "args") na) /\ ~ reserved (map tolower (tmp (lit "args") na)))
    by (apply tmp_facts; [idt|vm_compute; intuition discriminate|exact Hna]).
  assert (Tr : ident (tmp (lit "retval") nr) /\ ~ In 95 (tmp (lit "retval") nr) /\ ~ reserved (map tolower (tmp (lit "retval") nr)))
    by (apply tmp_facts; [idt|vm_compute; intuition discriminate|exact Hnr]).
  assert (Tx : ident (tmp (lit "result") nx) /\ ~ In 95 (tmp (lit "result") nx) /\ ~ reserved (map tolower (tmp (lit "result") nx)))
    by (apply tmp_facts; [idt|vm_compute; intuition discriminate|exact Hnx]).
  assert (Na := new_facts (pf_name f) 65 [114; 103; 115] If ltac:(lia) eq_refl ltac:(idt) ltac:(vm_compute; discriminate) ltac:(discriminate)).
  assert (Nx := new_facts (pf_name f) 82 [101; 115; 117; 108; 116] If ltac:(lia) eq_refl ltac:(idt) ltac:(vm_compute; discriminate) ltac:(discriminate)).
  change (65 :: [114; 103; 115]) with (lit "Args") in Na. change (82 :: [101; 115; 117; 108; 116]) with (lit "Result") in Nx.
  assert (C : func_ok (call_method f nr) <-> NoDup (arg_params f ++ exc_results f) /\
    forall v, In v (arg_params f ++ exc_results f) ->
      ~ In v (lit "p" :: ret_names f [tmp (lit "retval") nr] ++ [lit "err"]) /\ ~ In v [lit "nil"]).
  { apply func_ok_split.
    - unfold vars, call_method. cbn [gf_recv gf_params gf_results gf_locals]. apply (vars_perm _ _ _ _ _ []).
    - exact Iw.
    - unfold ret_names. destruct (pf_ret f); cbn [app]; lits; tauto.
    - unfold ret_names, tmp. destruct (pf_ret f); repeat constructor; cbn; intuition discriminate.
    - cbn [call_method gf_free]. unfold ret_names, tmp. intros u [<-|[]]. destruct (pf_ret f); cbn; intuition discriminate. }
  assert (S : func_ok (send_method f na) <-> NoDup (arg_params f ++ []) /\
    forall v, In v (arg_params f ++ []) -> ~ In v [lit "p"; lit "err"; lit "oprot"; tmp (lit "args") na] /\
      ~ In v [lit "nil"; s_thrift; lit "New" ++ publicize (privatize (pf_name f) ++ lit "Args")]).
  { apply func_ok_split.
    - unfold vars, send_method. cbn [gf_recv gf_params gf_results gf_locals]. apply (vars_perm _ _ [] [] _ _).
    - rewrite app_nil_r. exact Iwa.
    - lits; tauto.
    - unfold tmp. repeat constructor; cbn; intuition discriminate.
    - cbn [send_method gf_free]. unfold tmp. intros u [<-|[<-|[<-|[]]]]; cbn; intuition discriminate. }
  assert (R : func_ok (recv_method f nx) <-> NoDup (exc_results f) /\
    forall v, In v (exc_results f) ->
      ~ In v (lit "p" :: ret_names f [lit "value"] ++ [lit "err"; lit "iprot"; lit "mTypeId"; lit "seqId"; tmp (lit "result") nx]) /\
      ~ In v [lit "nil"; s_thrift; lit "New" ++ publicize (privatize (pf_name f) ++ lit "Result")]).
  { apply func_ok_split.
    - unfold vars, recv_method. cbn [gf_recv gf_params gf_results gf_locals]. apply (vars_perm _ [] _ _ _ _).
    - exact Iwe.
    - unfold ret_names. destruct (pf_ret f); cbn [app]; lits; tauto.
    - unfold ret_names, tmp. destruct (pf_ret f); repeat constructor; cbn; intuition discriminate.
    - cbn [recv_method gf_free]. unfold ret_names, tmp. intros u [<-|[<-|[<-|[]]]]; destruct (pf_ret f); cbn; intuition discriminate. }
  rewrite C, S, R. rewrite app_nil_r. clear C S R.
  assert (Ea : arg_params f = map arg_name (map fst (pf_args f))) by (unfold arg_params; rewrite map_map; reflexivity).
  assert (Ee : exc_results f = map arg_name (map fst (pf_exc f))) by (unfold exc_results; rewrite map_map; reflexivity).
  rewrite Ea, Ee, <- map_app. clear Ea Ee.
  assert (Q : forall a l, Forall (fun w => (~ In 95 w \/ last w 0 <> 49) /\ ~ reserved (map tolower w)) l -> (In (arg_name a) l <-> In a l)).
  { intros a l F. induction F as [|w l [F1 F2] F IH]; [reflexivity|]. cbn [In]. rewrite IH.
    pose proof (arg_name_eq a w F1 F2) as [E1 E2].
    split; (intros [G|G]; [left; symmetry; auto|right; exact G]). }
  assert (Qa : Forall (fun w => (~ In 95 w \/ last w 0 <> 49) /\ ~ reserved (map tolower w)) (arg_taken f na nr)).
  { unfold arg_taken, ret_names. fold (tmp (lit "args") na) (tmp (lit "retval") nr). cbn [map app].
    destruct (pf_ret f); lits; tauto. }
  assert (Qx : Forall (fun w => (~ In 95 w \/ last w 0 <> 49) /\ ~ reserved (map tolower w)) (exc_taken f nr nx)).
  { unfold exc_taken, ret_names. fold (tmp (lit "result") nx) (tmp (lit "retval") nr). cbn [map app].
    destruct (pf_ret f); lits; tauto. }
  assert (Ja : (forall a, In a (map fst (pf_args f)) -> ~ In a (arg_taken f na nr)) <->
    forall v, In v (map arg_name (map fst (pf_args f))) -> ~ In v (arg_taken f na nr)).
  { split.
    - intros Hq v Hv. apply in_map_iff in Hv as (a & <- & Ha). rewrite (Q a _ Qa). auto.
    - intros Hq a Ha. rewrite <- (Q a _ Qa). apply Hq, in_map, Ha. }
  assert (Jx : (forall a, In a (map fst (pf_exc f)) -> ~ In a (exc_taken f nr nx)) <->
    forall v, In v (map arg_name (map fst (pf_exc f))) -> ~ In v (exc_taken f nr nx)).
  { split.
    - intros Hq v Hv. apply in_map_iff in Hv as (a & <- & Ha). rewrite (Q a _ Qx). auto.
    - intros Hq a Ha. rewrite <- (Q a _ Qx). apply Hq, in_map, Ha. }
  rewrite Ja, Jx, !map_app. clear. unfold arg_taken, exc_taken, ret_names. fold (tmp (lit "args") na) (tmp (lit "retval") nr) (tmp (lit "result") nx).
  change s_thrift with (lit "thrift"). cbn [map app].
  set (A := map arg_name (map fst (pf_args f))). set (X := map arg_name (map fst (pf_exc f))). clearbody A X.
  generalize (tmp (lit "args") na) (tmp (lit "retval") nr) (tmp (lit "result") nx)
    (lit "New" ++ publicize (privatize (pf_name f) ++ lit "Args")) (lit "New" ++ publicize (privatize (pf_name f) ++ lit "Result"))
    (lit "p") (lit "err") (lit "nil") (lit "thrift") (lit "oprot") (lit "iprot") (lit "mTypeId") (lit "seqId") (lit "value").
  intros. cbn [map app]. destruct (pf_ret f); cbn [app]; split.
  1, 3: intros ((N1 & D1) & (N2 & D2) & (N3 & D3)); split; [exact N1|split; intros v Hv];
    [specialize (D1 v (in_or_app _ _ _ (or_introl Hv))); specialize (D2 v Hv)
    |specialize (D1 v (in_or_app _ _ _ (or_intror Hv))); specialize (D3 v Hv)]; cbn [In] in *; tauto.
  all: intros (N & D1 & D2); pose proof (proj1 (nodup_app _ _ _) N) as (Na & Nx & _);
    (split; [split; [exact N|]|split; (split; [assumption|])]); intros v Hv;
    [apply in_app_or in Hv as [Hv|Hv]; [specialize (D1 v Hv)|specialize (D2 v Hv)]|specialize (D1 v Hv)|specialize (D2 v Hv)];
    cbn [In] in *; tauto.
Qed.
Print Assumptions C92_iff.

(** Names the compiler takes that give a client no Go compiler takes: an argument p, err, nil,
    thrift or oprot; an argument named like an exception; an exception value beside a return
    value. *)
Definition fn_of (args excs : list string) : pfn :=
  PFn (lit "get") (map (fun a => (lit a, IBase)) args) (Some IBase)
    (map (fun e => (lit e, IStruct (lit "m") (lit "oops"))) excs) false.
Definition bad_functions : list pfn :=
  [fn_of ["p"] []; fn_of ["err"] []; fn_of ["nil"] []; fn_of ["thrift"] []; fn_of ["oprot"] [];
   fn_of ["a"] ["a"]; fn_of [] ["value"]; fn_of [] ["seqId"]; fn_of ["type"; "type_a1"] []]%string.
Theorem C92_refuted : Forall (fun f => ident (pf_name f) /\ Forall (fun a => ident (fst a)) (pf_args f ++ pf_exc f) /\
  NoDup (map fst (pf_args f)) /\ NoDup (map fst (pf_exc f)) /\
  forall na nr nx, 0 <= na < 2 ^ 63 -> 0 <= nr < 2 ^ 63 -> 0 <= nx < 2 ^ 63 ->
    ~ (func_ok (call_method f nr) /\ func_ok (send_method f na) /\ func_ok (recv_method f nx))) bad_functions.
Proof.
  assert (G : forall f, ident (pf_name f) -> Forall (fun a => ident (fst a)) (pf_args f ++ pf_exc f) ->
    ~ NoDup (map arg_name (map fst (pf_args f) ++ map fst (pf_exc f))) \/
    (exists a, In a (map fst (pf_args f)) /\ forall na nr, In a (arg_taken f na nr)) \/
    (exists a, In a (map fst (pf_exc f)) /\ forall nr nx, In a (exc_taken f nr nx)) ->
    forall na nr nx, 0 <= na < 2 ^ 63 -> 0 <= nr < 2 ^ 63 -> 0 <= nx < 2 ^ 63 ->
    ~ (func_ok (call_method f nr) /\ func_ok (send_method f na) /\ func_ok (recv_method f nx))).
  { intros f H1 H2 H3 na nr nx N1 N2 N3. rewrite (C92_iff f na nr nx H1 H2 N1 N2 N3). intros (A & B & C).
    destruct H3 as [H3|[(a & Ha & H3)|(a & Ha & H3)]]; [exact (H3 A)|exact (B a Ha (H3 _ _))|exact (C a Ha (H3 _ _))]. }
  unfold bad_functions.
  apply Forall_cons; [|apply Forall_cons; [|apply Forall_cons; [|apply Forall_cons; [|apply Forall_cons;
    [|apply Forall_cons; [|apply Forall_cons; [|apply Forall_cons; [|apply Forall_cons; [|apply Forall_nil]]]]]]]]].
  all: match goal with |- ident (pf_name ?f) /\ _ =>
      assert (I1 : ident (pf_name f)) by idt;
      assert (I2 : Forall (fun a => ident (fst a)) (pf_args f ++ pf_exc f)) by (unfold fn_of; cbn [pf_args pf_exc map app]; lits; idt);
      split; [exact I1|]; split; [exact I2|];
      split; [vm_compute; repeat (constructor; [cbn; intuition discriminate|]); constructor|];
      split; [vm_compute; repeat (constructor; [cbn; intuition discriminate|]); constructor|];
      apply (G f I1 I2); clear I1 I2
    end.
  1-5: right; left; eexists; split; [left; reflexivity|]; intros; cbn [In arg_taken map app]; tauto.
  - left. intros N. vm_compute in N. inversion N as [|? ? M _]; subst. apply M. left. reflexivity.
  - right. right. eexists. split; [left; reflexivity|]. intros. cbn. tauto.
  - right. right. eexists. split; [left; reflexivity|]. intros. cbn. tauto.
  - left. intros N. vm_compute in N. inversion N as [|? ? M _]; subst. apply M. left. reflexivity.
Qed.
Print Assumptions C92_refuted.

Example C92_ex : forall na nr nx, 0 <= na < 2 ^ 63 -> 0 <= nr < 2 ^ 63 -> 0 <= nx < 2 ^ 63 ->
  let f := fn_of ["type"; "at"]%string ["full"]%string in
  func_ok (call_method f nr) /\ func_ok (send_method f na) /\ func_ok (recv_method f nx).
Proof.
  intros na nr nx H1 H2 H3 f. apply (C92_iff f na nr nx); [idt| |assumption..|].
  { unfold f, fn_of. cbn [pf_args pf_exc map app]. lits; idt. }
  split; [vm_compute; repeat (constructor; [cbn; intuition discriminate|]); constructor|].
  split; [intros a [<-|[<-|[]]]|intros a [<-|[]]]; cbn; intuition discriminate.
Qed.

(** ** C93: names used are declared *)

(** An identifier without two underscores in a row or one at its end. *)
Definition clean (s : bytes) : Prop := ident s /\ (forall a b, s <> a ++ 95 :: 95 :: b) /\ last s 0 <> 95.
Definition single (s : bytes) : Prop := (forall a b, s <> a ++ 95 :: 95 :: b) /\ last s 0 <> 95.
Lemma single_tail : forall c s, single (c :: s) -> single s.
Proof.
  intros c s [D L]. split; [intros a b E; apply (D (c :: a) b); rewrite E; reflexivity|].
  destruct s as [|d s]; [discriminate|]. exact L.
Qed.
Lemma camel_step : forall c s, c <> 95 -> camel (c :: s) = c :: camel s.
Proof. intros c [|d s] H; [reflexivity|]. rewrite camel_cons. replace (c =? 95) with false by lia. reflexivity. Qed.
Lemma camel_again : forall s r, single s -> camel (camel s ++ r) = camel s ++ camel r.
Proof.
  intros s r. pattern s. apply camel_ind; clear s.
  - reflexivity.
  - intros c [_ L]. cbn [camel app]. apply camel_step. exact L.
  - intros c d s E IH H. rewrite camel_cons, E. cbn [app]. rewrite camel_step.
    + rewrite IH; [reflexivity|]. exact (single_tail _ _ (single_tail _ _ H)).
    + clear - E. chars. destruct ((97 <=? d) && (d <=? 122)) eqn:X; lia.
  - intros c d s E IH H. rewrite camel_cons, E. cbn [app]. destruct (Z.eq_dec c 95) as [->|Hc].
    + assert (Hd : d <> 95) by (intros ->; apply (proj1 H [] s); reflexivity).
      specialize (IH (single_tail _ _ H)). rewrite (camel_step d s Hd) in *. cbn [app] in *.
      rewrite camel_cons, E, IH. reflexivity.
    + rewrite camel_step by exact Hc. rewrite IH; [reflexivity|exact (single_tail _ _ H)].
Qed.
Lemma camel_join : forall s d r, last s 0 <> 95 -> isalpha d = true -> camel (s ++ 95 :: d :: r) = camel s ++ toupper d :: camel r.
Proof.
  intros s d r H Hd. revert H. pattern s. apply camel_ind; clear s.
  - intros _. cbn [app]. rewrite camel_cons, Hd. reflexivity.
  - intros c H. change (camel [c]) with [c]. cbn [app last] in *. rewrite (camel_step c _ H), camel_cons, Hd. reflexivity.
  - intros c e s E IH H. cbn [app]. rewrite !camel_cons, E. cbn [app]. rewrite IH; [reflexivity|].
    destruct s as [|a s]; [discriminate|exact H].
  - intros c e s E IH H. cbn [app] in *. rewrite !camel_cons, E. cbn [app]. rewrite IH; [reflexivity|]. exact H.
Qed.
Lemma up_low : forall c, (if negb (isupper (if negb (islower c) then tolower c else c)) then
  toupper (if negb (islower c) then tolower c else c) else (if negb (islower c) then tolower c else c)) =
  (if negb (isupper c) then toupper c else c).
Proof.
  intros c. chars. destruct ((97 <=? c) && (c <=? 122)) eqn:L, ((65 <=? c) && (c <=? 90)) eqn:U; cbn [negb]; try lia.
  - rewrite U, L. reflexivity.
  - rewrite ?U. replace ((65 <=? c + 32) && (c + 32 <=? 90)) with false by lia. cbn [negb].
    replace ((97 <=? c + 32) && (c + 32 <=? 122)) with true by lia. lia.
  - rewrite U. cbn [negb]. rewrite L. reflexivity.
Qed.
Lemma low_up : forall c, (if negb (islower (if negb (isupper c) then toupper c else c)) then
  tolower (if negb (isupper c) then toupper c else c) else (if negb (isupper c) then toupper c else c)) =
  (if negb (islower c) then tolower c else c).
Proof.
  intros c. chars. destruct ((97 <=? c) && (c <=? 122)) eqn:L, ((65 <=? c) && (c <=? 90)) eqn:U; cbn [negb]; try lia.
  - replace ((97 <=? c - 32) && (c - 32 <=? 122)) with false by lia. cbn [negb].
    replace ((65 <=? c - 32) && (c - 32 <=? 90)) with true by lia. lia.
  - rewrite L. cbn [negb]. rewrite U. reflexivity.
  - rewrite L. cbn [negb]. rewrite U. reflexivity.
Qed.
Lemma clean_names : forall s, clean s ->
  (forall d r, isalpha d = true -> camel (toupper d :: r) = toupper d :: r -> camel r = r ->
     publicize (privatize s ++ toupper d :: r) = publicize (s ++ 95 :: d :: r) /\
     publicize s ++ toupper d :: r = publicize (s ++ 95 :: d :: r)) /\
  privatize (publicize s) = privatize s.
Proof.
  intros [|c s] (I & D); [destruct I|]. apply single_tail in D as [D L]. pose proof (conj D L) as S. clear D. split.
  - intros d r Hd E1 E2. cbn [privatize publicize app]. rewrite up_low, (camel_again s _ S), E1, (camel_join s d r L Hd), E2.
    split; reflexivity.
  - cbn [publicize privatize]. rewrite low_up. pose proof (camel_again s [] S) as E. cbn [camel] in E.
    rewrite !app_nil_r in E. rewrite E. reflexivity.
Qed.

(** The types a program names, and that they are its own. *)
Definition named_types (p : program) : list ity :=
  map snd (p_typedefs p) ++ map pc_ty (p_consts p) ++ flat_map snd (p_structs p) ++
  flat_map (fun s => flat_map fn_types (ps_fns s)) (p_services p).
Definition own_types (p : program) : Prop := forall t n m, In t (named_types p) ->
  t = IStruct m n \/ t = INamed m n -> In n (declared_types p).

Lemma in_names_flat : forall A (g : A -> list item) l a n, In a l -> In n (names (g a)) -> In n (names (flat_map g l)).
Proof. intros A g l a n Ha Hn. rewrite names_flat. apply in_flat_map. eauto. Qed.
Lemma in_uses_flat : forall A (g : A -> list item) l u, In u (uses (flat_map g l)) -> exists a, In a l /\ In u (uses (g a)).
Proof.
  intros A g l u. induction l as [|a l IH]; cbn; [tauto|]. rewrite uses_app, in_app_iff.
  intros [H|H]; [eauto|]. destruct (IH H) as (b & Hb & Hu). eauto.
Qed.
Lemma declared_named : forall p n, In n (declared_types p) -> In (publicize n) (package_names p).
Proof.
  intros p n H. unfold package_names, files. cbn [flat_map]. apply in_or_app. left. unfold types_file. rewrite !names_app.
  apply in_or_app. right. apply in_or_app. right. unfold declared_types in H.
  apply in_app_or in H as [H|H]; [|apply in_app_or in H as [H|H]].
  - apply in_or_app. left. apply in_map_iff in H as (d & <- & Hd). apply filter_In in Hd as [Hd Hs].
    apply (in_names_flat _ _ _ d); [exact Hd|]. unfold generate_typedef. destruct (typedef_skipped d); [discriminate|].
    left. reflexivity.
  - apply in_or_app. right. apply in_or_app. left. apply in_map_iff in H as (e & <- & He).
    apply (in_names_flat _ _ _ e); [exact He|]. left. reflexivity.
  - do 3 (apply in_or_app; right). apply in_or_app. left. apply in_map_iff in H as (s & <- & Hs).
    apply (in_names_flat _ _ _ s); [exact Hs|]. left. reflexivity.
Qed.
Lemma own_used : forall p t u, own_types p -> In t (named_types p) -> In u (type_uses t) -> In u (package_names p).
Proof.
  intros p [| |m n|m n] u O Ht Hu; cbn in Hu; try tauto; destruct Hu as [<-|[]]; apply declared_named;
    [apply (O _ n m Ht); left; reflexivity|apply (O _ n m Ht); right; reflexivity].
Qed.

(** A program whose types are its own, with clean service and function names, uses no name its
    package does not declare. *)
Theorem C93_resolved : forall p, own_types p ->
  (forall s, In s (p_services p) -> clean (ps_name s) /\ forall f, In f (ps_fns s) -> clean (pf_name f)) ->
  resolved p.
Proof.
  intros p O Hc file Hf u Hu.
  assert (Ty : forall t, In t (named_types p) -> In u (type_uses t) -> In u (package_names p)) by (intros t; apply own_used, O).
  destruct Hf as [<-|Hf].
  - unfold types_file in Hu. rewrite !uses_app in Hu. apply in_app_or in Hu as [Hu|Hu]; [destruct Hu|].
    apply in_app_or in Hu as [Hu|Hu].
    { exfalso. unfold render_includes in Hu. induction (p_includes p) as [|m l IH]; [destruct Hu|exact (IH Hu)]. }
    apply in_app_or in Hu as [Hu|Hu].
    { apply in_uses_flat in Hu as (d & Hd & Hu). unfold generate_typedef in Hu. destruct (typedef_skipped d); [destruct Hu|].
      cbn in Hu. rewrite app_nil_r in Hu. apply (Ty (snd d)); [|exact Hu]. apply in_or_app. left. apply in_map, Hd. }
    apply in_app_or in Hu as [Hu|Hu].
    { apply in_uses_flat in Hu as (e & He & Hu). destruct Hu as [<-|[]]. apply declared_named. unfold declared_types.
      apply in_or_app. right. apply in_or_app. left. apply in_map, He. }
    apply in_app_or in Hu as [Hu|Hu].
    { apply in_uses_flat in Hu as (c & Hc' & Hu). cbn in Hu. rewrite app_nil_r in Hu. apply (Ty (pc_ty c)); [|exact Hu].
      apply in_or_app. right. apply in_or_app. left. apply in_map, Hc'. }
    apply in_app_or in Hu as [Hu|Hu]; [|destruct Hu].
    apply in_uses_flat in Hu as (s & Hs & Hu). cbn in Hu. rewrite app_nil_r in Hu. destruct Hu as [<-|Hu].
    { apply declared_named. unfold declared_types. apply in_or_app. right. apply in_or_app. right. apply in_map, Hs. }
    apply in_flat_map in Hu as (t & Ht & Hu). apply (Ty t); [|exact Hu]. do 2 (apply in_or_app; right).
    apply in_or_app. left. apply in_flat_map. eauto.
  - apply in_map_iff in Hf as (s & <- & Hs). destruct (Hc s Hs) as [Cs Cf]. clear Hc.
    assert (Tf : forall f t, In f (ps_fns s) -> In t (fn_types f) -> In u (type_uses t) -> In u (package_names p)).
    { intros f t Hf Ht. apply Ty. do 3 (apply in_or_app; right). apply in_flat_map. exists s. split; [exact Hs|].
      apply in_flat_map. eauto. }
    assert (In' : In u (names (service_file s)) -> In u (package_names p)).
    { intros H. unfold package_names, files. cbn [flat_map]. apply in_or_app. right. apply in_flat_map.
      exists (service_file s). split; [apply in_map, Hs|exact H]. }
    assert (Nm : forall v, In v (names (generate_interface s) ++ names (generate_client s) ++ names (generate_server s) ++
        names (flat_map fn_helpers (ps_fns s))) -> v = u -> In u (package_names p)).
    { intros v Hv ->. apply In'. unfold service_file. rewrite !names_app. do 2 (apply in_or_app; right). exact Hv. }
    assert (NI : (lit "I" ++ publicize (ps_name s)) = u -> In u (package_names p)).
    { apply Nm. apply in_or_app. left. left. reflexivity. }
    assert (NH : forall f v, In f (ps_fns s) -> In v (names (fn_helpers f)) -> v = u -> In u (package_names p)).
    { intros f v Hf Hv. apply Nm. do 3 (apply in_or_app; right). apply (in_names_flat _ _ _ f); assumption. }
    assert (NA : forall f, In f (ps_fns s) ->
      lit "New" ++ publicize (pf_name f ++ lit "_args") = u \/ lit "New" ++ publicize (pf_name f ++ lit "_result") = u ->
      In u (package_names p)).
    { intros f Hf [E|E]; revert E; (apply (NH f); [exact Hf|]); cbn; tauto. }
    unfold service_file in Hu. rewrite !uses_app in Hu. apply in_app_or in Hu as [Hu|Hu]; [destruct Hu|].
    apply in_app_or in Hu as [Hu|Hu]; [exfalso; destruct (ps_extends s) as [[m n]|]; destruct Hu|].
    apply in_app_or in Hu as [Hu|Hu].
    { cbn in Hu. rewrite app_nil_r in Hu. apply in_flat_map in Hu as (t & Ht & Hu). apply in_flat_map in Ht as (f & Hf & Ht).
      exact (Tf f t Hf Ht Hu). }
    apply in_app_or in Hu as [Hu|Hu].
    { unfold generate_client in Hu.
      assert (NC : client_type s = u -> In u (package_names p)).
      { apply Nm. apply in_or_app. right. apply in_or_app. left. left. reflexivity. }
      destruct Hu as [Hu|Hu]; [exact (NC Hu)|].
      apply in_uses_flat in Hu as (f & Hf & Hu). cbn [client_method uses flat_map] in Hu. rewrite app_nil_r in Hu.
      destruct Hu as [Hu|Hu]; [exact (NC Hu)|]. apply in_app_or in Hu as [Hu|Hu].
      { apply in_flat_map in Hu as (t & Ht & Hu). exact (Tf f t Hf Ht Hu). }
      destruct (clean_names _ (Cf f Hf)) as [C _].
      destruct (C 97 [114; 103; 115] eq_refl eq_refl eq_refl) as [C1 _].
      destruct (C 114 [101; 115; 117; 108; 116] eq_refl eq_refl eq_refl) as [C2 _].
      apply (NA f Hf). destruct Hu as [Hu|[Hu|[]]]; [left|right]; rewrite <- Hu; f_equal; symmetry; [exact C1|exact C2]. }
    apply in_app_or in Hu as [Hu|Hu].
    { unfold generate_server in Hu. cbn [uses flat_map] in Hu. apply in_app_or in Hu as [Hu|Hu].
      - destruct Hu as [Hu|[Hu|Hu]].
        + revert Hu. apply Nm. do 2 (apply in_or_app; right). apply in_or_app. left. left. reflexivity.
        + exact (NI Hu).
        + apply in_map_iff in Hu as (f & E & Hf). revert E. apply Nm. do 2 (apply in_or_app; right). apply in_or_app. left.
          unfold generate_server. do 2 right.
          match goal with |- In ?v _ => change (In v (names (flat_map (process_fn s) (ps_fns s)))) end.
          apply (in_names_flat _ _ _ f); [exact Hf|]. left. rewrite (proj2 (clean_names _ Cs)). reflexivity.
      - change (In u (uses (flat_map (process_fn s) (ps_fns s)))) in Hu.
        apply in_uses_flat in Hu as (f & Hf & Hu). destruct Hu as [Hu|Hu]; [exact (NI Hu)|].
        destruct (clean_names _ (Cf f Hf)) as [C _].
        destruct (C 97 [114; 103; 115] eq_refl eq_refl eq_refl) as [_ C1].
        destruct (C 114 [101; 115; 117; 108; 116] eq_refl eq_refl eq_refl) as [_ C2].
        apply (NA f Hf). destruct Hu as [Hu|[Hu|[]]]; [left|right]; rewrite <- Hu; f_equal; symmetry; [exact C1|exact C2]. }
    apply in_uses_flat in Hu as (f & Hf & Hu). unfold fn_helpers in Hu. rewrite uses_app in Hu.
    unfold generate_struct in Hu. cbn [uses flat_map fst snd app] in Hu. rewrite !app_nil_r in Hu.
    assert (Tm : forall l, (forall t, In t l -> In t (fn_types f)) -> In u (flat_map type_uses l) -> In u (package_names p)).
    { intros l Hl H. apply in_flat_map in H as (t & Ht & H). exact (Tf f t Hf (Hl t Ht) H). }
    destruct Hu as [Hu|Hu]; [|apply in_app_or in Hu as [Hu|[Hu|Hu]]].
    + revert Hu. apply (NH f); [exact Hf|]. left. reflexivity.
    + revert Hu. apply Tm. intros t Ht. unfold fn_types. apply in_or_app. left. exact Ht.
    + revert Hu. apply (NH f); [exact Hf|]. right. right. left. reflexivity.
    + revert Hu. apply Tm. intros t Ht. unfold fn_types. apply in_or_app. right. exact Ht.
Qed.
Print Assumptions C93_resolved.

(** A typedef of an enum or of a typedef is printed exactly if its Go name is another; so a type is not defined by itself
    (type X X, which Go rejects), except as a pointer to a struct of the same name. *)
Theorem C93_typedef : forall d,
  (forall m n, snd d = INamed m n -> (generate_typedef d = [] <-> publicize n = publicize (fst d))) /\
  forall ns q u n, In (Decl ns q u) (generate_typedef d) -> In n ns -> In n u -> exists m s, snd d = IStruct m s.
Proof.
  intros [a t]. unfold generate_typedef, typedef_skipped. cbn [fst snd]. split.
  - intros m n ->. destruct (beq_spec (publicize n) (publicize a)) as [E|E]; split; intro H; try congruence; try discriminate H.
  - intros ns q u n H Hn Hu. destruct t as [| |m s|m s]; cbn [type_uses] in *.
    + destruct H as [H|[]]. injection H; intros; subst. destruct Hu.
    + destruct H as [H|[]]. injection H; intros; subst. destruct Hu.
    + exists m, s. reflexivity.
    + destruct (beq_spec (publicize s) (publicize a)) as [E|E]; [destruct H|]. destruct H as [H|[]].
      injection H; intros; subst. destruct Hn as [<-|[]]. destruct Hu as [Hu|[]]. congruence.
Qed.
Print Assumptions C93_typedef.
Example C93_typedef_ex : generate_typedef (lit "Color", INamed (lit "m") (lit "color")) = [] /\
  generate_typedef (lit "hue", INamed (lit "m") (lit "color")) <> [].
Proof. split; [reflexivity|discriminate]. Qed.

(** Otherwise there are programs that use names nobody declares: a function a__b, a function a_, a
    service a__b; a member of a type of an included program; a typedef that is not printed. *)
Definition unresolved_programs : list program :=
  [Program (lit "m") [] [] [] [] [point] [PService (lit "s") None [PFn (lit "a__b") [] None [] false]];
   Program (lit "m") [] [] [] [] [point] [PService (lit "s") None [PFn (lit "a_") [] None [] false]];
   Program (lit "m") [] [] [] [] [point] [PService (lit "a__b") None [fn_ping]];
   Program (lit "m") [lit "shared"] [] [] [] [(lit "point", [IStruct (lit "shared") (lit "unit")])] [];
   Program (lit "m") [lit "shared"] [(lit "id", INamed (lit "shared") (lit "id"))] [] [] [(lit "point", [INamed (lit "m") (lit "id")])] []].
Theorem C93_refuted : Forall (fun p => ~ resolved p) unresolved_programs.
Proof.
  assert (G : forall p, existsb (fun f => existsb (fun u => negb (existsb (beq u) (package_names p))) (uses f)) (files p) = true ->
    ~ resolved p).
  { intros p H R. apply existsb_exists in H as (f & Hf & H). apply existsb_exists in H as (u & Hu & H).
    specialize (R f Hf u Hu). apply negb_true_iff in H. assert (T : existsb (beq u) (package_names p) = true).
    { apply existsb_exists. exists u. split; [exact R|]. destruct (beq_spec u u); congruence. }
    congruence. }
  unfold unresolved_programs. lits; apply G; vm_compute; reflexivity.
Qed.
Print Assumptions C93_refuted.

Example C93_ex : resolved good_program.
Proof.
  apply C93_resolved.
  - intros t n m Ht E.
    assert (G : forallb (fun t => match t with IStruct _ n | INamed _ n => existsb (beq n) (declared_types good_program) | _ => true end)
      (named_types good_program) = true) by (vm_compute; reflexivity).
    rewrite forallb_forall in G. specialize (G t Ht).
    assert (X : existsb (beq n) (declared_types good_program) = true) by (destruct E; subst t; exact G).
    apply existsb_exists in X as (k & Hk & B). destruct (beq_spec n k); [subst; exact Hk|discriminate].
  - assert (P : forall s, plain s -> clean s).
    { intros s H. destruct (plain_whole s H) as [_ U]. split; [|split].
      - destruct s as [|c t]; [destruct H|]. destruct H as [H1 H2]. split; [chars; lia|]. eapply Forall_impl; [|exact H2].
        unfold plain_char. intros d Hd. chars. lia.
      - intros a b ->. apply U. apply in_or_app. right. left. reflexivity.
      - intros L. apply U. rewrite <- L. destruct s as [|c t]; [discriminate|]. 
        rewrite (app_removelast_last 0 (l := c :: t)) at 2 by discriminate. apply in_or_app. right. left. reflexivity. }
    destruct good_plain as [_ A]. rewrite Forall_forall in A. intros s Hs. split.
    + apply P, A, in_or_app. left. apply in_map, Hs.
    + intros f Hf. apply P, A, in_or_app. right. exact (in_functions _ s f Hs Hf).
Qed.
